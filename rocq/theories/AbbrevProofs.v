(** * Proofs about the abbreviation generators. *)
From Verif Require Import Base Dict Abbrev StrUtils StrUtilsProofs.

Definition prefix (a w : str) : Prop := exists t, w = a ++ t.

Lemma in_down_range hi lo n : In n (down_range hi lo) <-> (lo <= n <= hi)%nat.
Proof.
  induction hi as [|hi IH]; cbn [down_range].
  - destruct (Nat.ltb_spec 0 lo); cbn; lia.
  - destruct (Nat.ltb_spec (S hi) lo); cbn; [lia|]. rewrite IH. lia.
Qed.

Lemma down_range_NoDup hi lo : NoDup (down_range hi lo).
Proof.
  induction hi as [|hi IH]; cbn [down_range].
  - destruct (Nat.ltb 0 lo); constructor; [intros []|constructor].
  - destruct (Nat.ltb (S hi) lo); constructor; [|exact IH]. rewrite in_down_range. lia.
Qed.

Definition abbrev_ok (words : list str) (word a : str) : bool :=
  can_abbreviate words word a || str_eqb a word.

Lemma abbrev_loop_fst words word lens : forall acc m,
  fst (abbrev_loop words word acc m lens)
  = acc ++ filter (abbrev_ok words word) (map (fun n => firstn n word) lens).
Proof.
  induction lens as [|n lens IH]; intros acc m; cbn; [rewrite app_nil_r; reflexivity|].
  unfold abbrev_ok at 1. destruct (can_abbreviate words word (firstn n word) || str_eqb (firstn n word) word).
  - rewrite IH, <- app_assoc. reflexivity.
  - apply IH.
Qed.

Lemma general_loop_spec m words todo : forall d w,
  dget str_eqb w (general_loop m words d todo) =
  if mems w todo then Some (abbrev_loop words w [] (length w) (down_range (length w) m))
  else dget str_eqb w d.
Proof.
  induction todo as [|x todo IH]; intros d w; cbn; [reflexivity|].
  rewrite IH. fold (mems w todo). destruct (mems w todo); [rewrite orb_true_r; reflexivity|].
  rewrite orb_false_r. destruct (str_eqb_spec w x) as [->|Hn].
  - apply (dget_dset_same str_eqb str_eqb_spec).
  - apply (dget_dset_other str_eqb str_eqb_spec). congruence.
Qed.

Lemma get_abbreviations_eq m words w :
  get_abbreviations (general_abbreviations m words) w =
  if mems w words
  then Ok (filter (abbrev_ok words w) (map (fun n => firstn n w) (down_range (length w) m)))
  else Err KeyError.
Proof.
  unfold get_abbreviations, general_abbreviations. rewrite general_loop_spec.
  destruct (mems w words); [|reflexivity].
  pose proof (abbrev_loop_fst words w (down_range (length w) m) [] (length w)) as H.
  destruct (abbrev_loop _ _ _ _ _) as [a k]. cbn in H. rewrite H. reflexivity.
Qed.

Lemma can_abbreviate_iff words w a : can_abbreviate words w a = true <->
  forall w', In w' words -> w' <> w -> ~ prefix a w'.
Proof.
  unfold can_abbreviate. rewrite negb_true_iff. split.
  - intros H w' Hi Hn Hp.
    assert (existsb (starts_with a) (filter (fun w0 => negb (str_eqb w0 w)) words) = true); [|congruence].
    apply existsb_exists. exists w'. split.
    + apply filter_In. split; [exact Hi|]. apply negb_true_iff, str_eqb_neq; exact Hn.
    + apply starts_with_app. exact Hp.
  - intros H. destruct (existsb _ _) eqn:E; [|reflexivity].
    apply existsb_exists in E as [w' [Hi Hs]]. apply filter_In in Hi as [Hi Hn].
    apply negb_true_iff, str_eqb_neq in Hn. apply starts_with_app in Hs.
    exfalso. exact (H w' Hi Hn Hs).
Qed.

Lemma abbreviations_iff m words w l : get_abbreviations (general_abbreviations m words) w = Ok l ->
  forall a, In a l <-> prefix a w /\ (m <= length a)%nat /\
    (a = w \/ forall w', In w' words -> w' <> w -> ~ prefix a w').
Proof.
  rewrite get_abbreviations_eq. destruct (mems w words); [|discriminate].
  intros H; injection H as <-. intros a. rewrite filter_In, in_map_iff.
  unfold abbrev_ok. rewrite orb_true_iff, can_abbreviate_iff, str_eqb_eq. split.
  - intros [[n [<- Hn]] H]. apply in_down_range in Hn. split; [|split].
    + exists (skipn n w). symmetry. apply firstn_skipn.
    + rewrite firstn_length. lia.
    + tauto.
  - intros [[t Ht] [Hm H]]. split; [|tauto]. exists (length a). split.
    + rewrite Ht, firstn_app, Nat.sub_diag, firstn_all. cbn. apply app_nil_r.
    + apply in_down_range. rewrite Ht, app_length. lia.
Qed.

Lemma abbreviations_total m words w :
  (In w words -> exists l, get_abbreviations (general_abbreviations m words) w = Ok l /\ NoDup l) /\
  (~ In w words -> get_abbreviations (general_abbreviations m words) w = Err KeyError).
Proof.
  rewrite get_abbreviations_eq. split; intros H.
  - apply mems_In in H. rewrite H. eexists. split; [reflexivity|].
    apply NoDup_filter. pose proof (down_range_NoDup (length w) m) as Hn.
    assert (Hle : forall n, In n (down_range (length w) m) -> (n <= length w)%nat)
      by (intros n Hi; apply in_down_range in Hi; lia).
    induction (down_range (length w) m) as [|n ns IH]; cbn; [constructor|].
    inversion Hn; subst. constructor.
    + intros Hi. apply in_map_iff in Hi as [k [Hk Hki]].
      assert (k = n); [|congruence].
      apply (f_equal (@length N)) in Hk. rewrite !firstn_length in Hk.
      pose proof (Hle n (or_introl eq_refl)). pose proof (Hle k (or_intror Hki)). lia.
    + apply IH; [assumption|]. intros k Hk. apply Hle. right; exact Hk.
  - apply mems_false in H. rewrite H. reflexivity.
Qed.

Lemma abbreviations_disjoint m words w1 w2 l1 l2 a :
  get_abbreviations (general_abbreviations m words) w1 = Ok l1 ->
  get_abbreviations (general_abbreviations m words) w2 = Ok l2 ->
  In a l1 -> In a l2 -> w1 = w2.
Proof.
  intros H1 H2 A1 A2.
  assert (I1 : In w1 words) by (rewrite get_abbreviations_eq in H1; destruct (mems w1 words) eqn:E; [apply mems_In; exact E|discriminate]).
  assert (I2 : In w2 words) by (rewrite get_abbreviations_eq in H2; destruct (mems w2 words) eqn:E; [apply mems_In; exact E|discriminate]).
  apply (abbreviations_iff _ _ _ _ H1) in A1 as [P1 [_ O1]].
  apply (abbreviations_iff _ _ _ _ H2) in A2 as [P2 [_ O2]].
  destruct (str_eq_dec w1 w2) as [|Hn]; [assumption|]. exfalso.
  destruct O1 as [->|O1]; [|exact (O1 w2 I2 (not_eq_sym Hn) P2)].
  destruct O2 as [->|O2]; [congruence|exact (O2 w1 I1 Hn P1)].
Qed.

Lemma get_many_eq d ws r : get_many_abbreviations d ws = Ok r ->
  exists ls, Forall2 (fun w l => get_abbreviations d w = Ok l) ws ls /\ r = concat ls.
Proof.
  revert r; induction ws as [|w ws IH]; cbn; intros r H.
  - injection H as <-. exists []. split; [constructor|reflexivity].
  - destruct (get_abbreviations d w) as [e|l] eqn:E; [discriminate|]. cbn in H.
    destruct (get_many_abbreviations d ws) as [e|r'] eqn:E'; [discriminate|]. cbn in H.
    injection H as <-. destruct (IH r' eq_refl) as [ls [Hf ->]].
    exists (l :: ls). split; [constructor; assumption|reflexivity].
Qed.

(** The option generator accepts all valid long and old-style option strings. *)
Lemma option_word_ok_valid w : is_valid_option_string w = true ->
  (is_long_option_string w = true \/ is_old_option_string w = true) -> option_word_ok w = true.
Proof.
  intros Hv Ho. destruct (option_style w Hv) as [_ [Hl Hold]].
  destruct Ho as [Ho|Ho].
  - apply Hl in Ho as [y [Hy ->]]. destruct y as [|c [|d y]]; [congruence|reflexivity|reflexivity].
  - apply Hold in Ho as [c [d [y [Hc ->]]]]. unfold option_word_ok. cbn.
    destruct c as [|p]; [reflexivity|]. destruct (_ && _)%bool; reflexivity.
Qed.

Lemma option_abbreviations_ok words :
  (forall w, In w words -> is_valid_option_string w = true /\
     (is_long_option_string w = true \/ is_old_option_string w = true)) ->
  option_abbreviations words = Ok (general_abbreviations 3 words).
Proof.
  intros H. unfold option_abbreviations.
  replace (forallb option_word_ok words) with true; [reflexivity|].
  symmetry. apply forallb_forall. intros w Hw. destruct (H w Hw) as [H1 H2].
  apply option_word_ok_valid; assumption.
Qed.

Lemma abbreviations_complete m words w :
  In w words ->
  exists l, get_abbreviations (general_abbreviations m words) w = Ok l /\ NoDup l /\
    (m <= length w -> In w l)%nat /\
    forall a t, w = a ++ t -> (m <= length a)%nat ->
      (forall w', In w' words -> w' <> w -> ~ exists t', w' = a ++ t') -> In a l.
Proof.
  intros H. destruct (proj1 (abbreviations_total m words w) H) as [l [E Hn]].
  exists l. split; [exact E|]. split; [exact Hn|].
  pose proof (abbreviations_iff m words w l E) as Hi. split.
  - intros Hm. apply Hi. split; [exists []; rewrite app_nil_r; reflexivity|]. auto.
  - intros a t Ht Hm Hu. apply Hi. split; [exists t; exact Ht|]. auto.
Qed.

Lemma option_abbreviations_disjoint words :
  (forall w, In w words -> is_valid_option_string w = true /\
     (is_long_option_string w = true \/ is_old_option_string w = true)) ->
  exists d, option_abbreviations words = Ok d /\
    forall w1 w2 l1 l2 a, get_abbreviations d w1 = Ok l1 -> get_abbreviations d w2 = Ok l2 ->
      In a l1 -> In a l2 -> w1 = w2.
Proof.
  intros H. eexists. split; [apply option_abbreviations_ok; exact H|].
  intros w1 w2 l1 l2 a. apply abbreviations_disjoint.
Qed.
