(** * The helper function [query] of zsh scripts understands command lines: the available options. *)
From Coq Require Import Permutation.
From Verif Require Import Base Value Shell StrUtils StrUtilsProofs Cli CliProofs CliMore SpecCli BashUtils BashParser SpecParser
  ParserPaths ParserTables ParserProofs FishRuntime FishQuery SpecQuery FishQueryProofs FishQueryMain ZshQuery.
Open Scope list_scope.

Lemma split_join_nonempty l : (forall w, In w l -> w <> [] /\ ~ In SP w) -> filter nonempty (split_c SP (join [SP] l)) = l.
Proof.
  intros H. destruct l as [| w l]; [reflexivity |]. rewrite split_join_c.
  - apply filter_all. intros x Hx. destruct (H x Hx) as [Hn _]. now destruct x.
  - discriminate.
  - intros x Hx. exact (proj2 (H x Hx)).
Qed.

Definition style_of (x : str) : style :=
  match x with
  | _ :: d :: y => if N.eqb d DASH then Long else match y with [] => Short | _ => Old end
  | _ => Old
  end.

Lemma ends_app p x : ends_with p (x ++ p) = true.
Proof.
  unfold ends_with. rewrite rev_app_distr. generalize (rev p) (rev x). intros l y. induction l as [| c l IH]; [reflexivity |].
  cbn [app starts_with]. now rewrite N.eqb_refl.
Qed.
Lemma starts_eq p : forall x, starts_with p x = true -> exists t, x = p ++ t.
Proof.
  induction p as [| c p IH]; intros x H; [now exists x |]. destruct x as [| d x]; [discriminate |]. cbn [starts_with] in H.
  apply andb_prop in H as [H1 H2]. apply N.eqb_eq in H1 as ->. destruct (IH x H2) as (t & ->). now exists t.
Qed.
Lemma ends_eq p x : ends_with p x = true -> exists t, x = t ++ p.
Proof.
  unfold ends_with. intros H. apply starts_eq in H as (t & E). exists (rev t). apply (f_equal (@rev N)) in E.
  rewrite rev_app_distr, !rev_involutive in E. exact E.
Qed.
Lemma ends_no p x : In EQ p -> ~ In EQ x -> ends_with p x = false.
Proof. intros H1 H2. destruct (ends_with p x) eqn:E; [| reflexivity]. exfalso. apply ends_eq in E as (t & ->). apply H2, in_or_app. now right. Qed.
Lemma ends_q x : ~ In EQ x -> ends_with (s "=") (x ++ s "=?") = false.
Proof.
  intros H. destruct (ends_with (s "=") (x ++ s "=?")) eqn:E; [| reflexivity]. exfalso. apply ends_eq in E as (t & E).
  apply (f_equal (@rev N)) in E. rewrite !rev_app_distr in E. discriminate E.
Qed.
Lemma without_suffix x t : without_last (List.length t) (x ++ t) = x.
Proof. unfold without_last. rewrite app_length. replace (_ - _) with (List.length x) by lia. rewrite firstn_app, Nat.sub_diag, firstn_all, firstn_O; apply app_nil_r. Qed.

Section Options.
Context (root : cmd) (Hb : built root) (Hd : clear_definition root).
Notation m := (get_macros root).

(** the shapes of option strings, with their macros *)
Definition shaped (x : str) : Prop :=
  (exists d, d <> DASH /\ x = [DASH; d] /\ m_short m = true) \/
  (exists y, y <> [] /\ x = DASH :: DASH :: y /\ m_long m = true) \/
  (exists d e y, d <> DASH /\ x = DASH :: d :: e :: y /\ m_old m = true).
Definition suffix_of (k : argkind) : str := match k with ArgNone => [] | ArgRequired => s "=" | ArgOptional => s "=?" end.
Lemma len_app (x t : str) : List.length (x ++ t) = List.length x + List.length t.
Proof. apply app_length. Qed.
Lemma classify_shaped x k : shaped x -> ~ In EQ x -> classify m (x ++ suffix_of k) = Some (style_of x, k, x).
Proof.
  intros Hs He.
  assert (E1 : ends_with (s "=") (x ++ suffix_of k) = match k with ArgRequired => true | _ => false end).
  { destruct k; cbn [suffix_of]; [rewrite app_nil_r; apply ends_no; [now left | exact He] | apply ends_app | now apply ends_q]. }
  assert (E2 : ends_with (s "=?") (x ++ suffix_of k) = match k with ArgOptional => true | _ => false end).
  { destruct k; cbn [suffix_of]; [rewrite app_nil_r; apply ends_no; [now left | exact He] | | apply ends_app].
    destruct (ends_with (s "=?") (x ++ s "=")) eqn:E; [| reflexivity]. exfalso. apply ends_eq in E as (t & E).
    apply (f_equal (@rev N)) in E. rewrite !rev_app_distr in E. discriminate E. }
  assert (E3 : ends_with [] (x ++ suffix_of k) = true) by reflexivity.
  assert (W1 : k = ArgRequired -> without_last 1 (x ++ suffix_of k) = x) by (intros ->; apply (without_suffix x (s "="))).
  assert (W2 : k = ArgOptional -> without_last 2 (x ++ suffix_of k) = x) by (intros ->; apply (without_suffix x (s "=?"))).
  assert (W0 : k = ArgNone -> x ++ suffix_of k = x) by (intros ->; apply app_nil_r).
  assert (L : List.length (x ++ suffix_of k) = List.length x + match k with ArgNone => 0 | ArgRequired => 1 | ArgOptional => 2 end)
    by (rewrite len_app; now destruct k).
  unfold classify, at_least, exactly. rewrite E1, E2, E3.
  destruct Hs as [(d & Hn & Ex & Hm) | [(y & Hn & Ex & Hm) | (d & e & y & Hn & Ex & Hm)]].
  - assert (S2 : starts_with (s "--") (x ++ suffix_of k) = false).
    { rewrite Ex. cbn [app]. change (starts_with (s "--") (DASH :: d :: suffix_of k)) with (N.eqb DASH d && true).
      rewrite andb_true_r. apply N.eqb_neq. congruence. }
    assert (S1 : starts_with (s "-") (x ++ suffix_of k) = true) by (rewrite Ex; reflexivity).
    assert (Ly : List.length x = 2) by (rewrite Ex; reflexivity).
    assert (St : style_of x = Short).
    { rewrite Ex. cbn [style_of]. now rewrite (proj2 (N.eqb_neq d DASH) Hn). }
    rewrite S2, S1, L, Ly, St, Hm. rewrite !andb_false_r. cbn [andb].
    destruct k; cbn [andb Nat.add List.length Nat.eqb]; [rewrite W0 | rewrite W1 | rewrite W2]; reflexivity.
  - assert (S2 : starts_with (s "--") (x ++ suffix_of k) = true) by (rewrite Ex; reflexivity).
    assert (Ly : exists j, List.length x = S (S (S j))) by (rewrite Ex; destruct y as [| ? y]; [now destruct Hn | now exists (List.length y)]).
    destruct Ly as (j & Ly). assert (St : style_of x = Long) by (rewrite Ex; reflexivity).
    rewrite S2, L, Ly, St, Hm. cbn [andb].
    change (List.length (s "--")) with 2. change (List.length (s "=")) with 1. change (List.length (s "=?")) with 2. change (@List.length N []) with 0.
    destruct k; cbn [andb].
    + replace (2 + 1 + 0 <=? S (S (S j)) + 0) with true by (symmetry; apply Nat.leb_le; lia). now rewrite W0.
    + replace (2 + 1 + 1 <=? S (S (S j)) + 1) with true by (symmetry; apply Nat.leb_le; lia). now rewrite W1.
    + replace (2 + 1 + 2 <=? S (S (S j)) + 2) with true by (symmetry; apply Nat.leb_le; lia). now rewrite W2.
  - assert (S2 : starts_with (s "--") (x ++ suffix_of k) = false).
    { rewrite Ex. cbn [app]. change (starts_with (s "--") (DASH :: d :: e :: y ++ suffix_of k)) with (N.eqb DASH d && true).
      rewrite andb_true_r. apply N.eqb_neq. congruence. }
    assert (S1 : starts_with (s "-") (x ++ suffix_of k) = true) by (rewrite Ex; reflexivity).
    assert (Ly : List.length x = S (S (S (List.length y)))) by (rewrite Ex; reflexivity).
    assert (St : style_of x = Old).
    { rewrite Ex. cbn [style_of]. now rewrite (proj2 (N.eqb_neq d DASH) Hn). }
    rewrite S2, S1, L, St, Hm. rewrite !andb_false_r. cbn [andb].
    change (List.length (s "=")) with 1 in *. change (List.length (s "=?")) with 2 in *.
    change (List.length (s "-")) with 1 in *. change (@List.length N []) with 0 in *.
    destruct k; cbn [andb]; rewrite !andb_false_r.
    + replace (1 + 1 + 0 =? List.length x + 0) with false by (symmetry; apply Nat.eqb_neq; lia). rewrite andb_false_r.
      replace (1 + 2 + 0 <=? List.length x + 0) with true by (symmetry; apply Nat.leb_le; lia). now rewrite W0.
    + replace (1 + 1 + 1 =? List.length x + 1) with false by (symmetry; apply Nat.eqb_neq; lia).
      replace (1 + 1 + 0 =? List.length x + 1) with false by (symmetry; apply Nat.eqb_neq; lia). rewrite !andb_false_r.
      replace (1 + 2 + 1 <=? List.length x + 1) with true by (symmetry; apply Nat.leb_le; lia). now rewrite W1.
    + replace (1 + 1 + 2 =? List.length x + 2) with false by (symmetry; apply Nat.eqb_neq; lia).
      replace (1 + 1 + 0 =? List.length x + 2) with false by (symmetry; apply Nat.eqb_neq; lia). rewrite !andb_false_r.
      replace (1 + 2 + 2 <=? List.length x + 2) with true by (symmetry; apply Nat.leb_le; lia). now rewrite W2.
Qed.

(** ** The options of a command and its ancestors *)
Lemma render_suffix o : render o = map (fun x => x ++ suffix_of (arg_kind o)) (o_strings o).
Proof.
  unfold render. destruct (kind_cases o) as [(K & K1 & K2) | [(K & K1 & K2) | (K & K1 & K2)]]; rewrite K, K1, K2; cbn [suffix_of]; try reflexivity.
  rewrite (map_ext _ (fun x => x)); [now rewrite map_id | intros x; apply app_nil_r].
Qed.
Lemma same_strings_In a b x : same_strings a b = true -> (In x (o_strings a) <-> In x (o_strings b)).
Proof. intros H. apply same_strings_perm in H. split; apply Permutation_in; [exact H | now apply Permutation_sym]. Qed.
Lemma visible_nearest chain : forall seen d o, In d chain -> In o (c_options d) -> existsb (same_strings o) seen = false ->
  exists o', In o' (visible seen chain) /\ same_strings o o' = true.
Proof.
  induction chain as [| c chain IH]; intros seen d o Hin Ho Hs; [destruct Hin |]. cbn [visible].
  assert (R : same_strings o o = true) by (apply same_strings_perm, Permutation_refl).
  destruct Hin as [<- | Hin].
  - exists o. split; [| exact R]. apply in_or_app. left. apply filter_In. rewrite Hs. auto.
  - destruct (existsb (same_strings o) (c_options c)) eqn:E.
    + apply existsb_exists in E as (p & Hp & Hsp). exists p. split; [| exact Hsp]. apply in_or_app. left. apply filter_In. split; [exact Hp |].
      apply negb_true_iff. destruct (existsb (same_strings p) seen) eqn:Q; [| reflexivity].
      apply existsb_exists in Q as (z & Hz & Hzp). rewrite <- Hs. symmetry. apply existsb_exists. exists z. split; [exact Hz |].
      apply same_strings_perm. apply same_strings_perm in Hsp, Hzp. eapply Permutation_trans; eassumption.
    + destruct (IH (seen ++ c_options c) d o Hin Ho) as (o' & H1 & H2); [rewrite existsb_app, Hs, E; reflexivity |].
      exists o'. split; [apply in_or_app; now right | exact H2].
Qed.
Lemma visible_In chain : forall seen o, In o (visible seen chain) -> exists d, In d chain /\ In o (c_options d).
Proof.
  induction chain as [| c chain IH]; intros seen o H; [destruct H |]. cbn [visible] in H. apply in_app_or in H as [H | H].
  - apply filter_In in H as [H _]. exists c. split; [now left | exact H].
  - destruct (IH _ _ H) as (d & H1 & H2). exists d. split; [now right | exact H2].
Qed.
Lemma place_of_chain rs c d : In d (c :: rs) -> exists p, on_path rs c p /\ snd p = d.
Proof.
  intros [<- | H]; [exists (rs, c); split; [now left | reflexivity] |].
  revert c. induction rs as [| q rs IH]; intros c; [destruct H |]. destruct H as [<- | H].
  - exists (rs, q). split; [right; now left | reflexivity].
  - destruct (IH H q) as (p & Hp & E). exists p. split; [| exact E]. right. cbn [ancestors]. destruct Hp as [-> | Hp]; [now left | now right].
Qed.
Lemma chain_of_path rs c p : on_path rs c p -> In (snd p) (c :: rs).
Proof.
  intros [-> | H]; [now left |]. right. revert H. induction rs as [| q rs IH]; [intros [] |]. cbn [ancestors]. intros [<- | H]; [now left | right; auto].
Qed.
Lemma path_option_shape rs c p o x : located root rs c -> on_path rs c p -> In o (c_options (snd p)) -> In x (o_strings o) ->
  shaped x /\ ~ In EQ x /\ located root (fst p) (snd p).
Proof.
  intros Hl Hp Ho Hx. assert (Hl' : located root (fst p) (snd p)).
  { destruct Hp as [-> | Hp]; [exact Hl | eapply ancestors_located; eassumption]. }
  split; [exact (option_shape root Hb _ _ o x Hl' Ho Hx) |]. split; [exact (clear_strings root Hd _ _ o x Hl' Ho Hx) | exact Hl'].
Qed.

Definition query_words (rs : list cmd) (c : cmd) : list str := filter nonempty (split_c SP (get_query_option_strings rs c true)).
Lemma query_words_eq rs c : located root rs c -> query_words rs c = flat_map render (get_options rs c true false).
Proof.
  intros Hl. unfold query_words, get_query_option_strings. fold render. apply split_join_nonempty.
  intros w Hw. apply in_flat_map in Hw as (o & Ho & Hw).
  destruct (get_options_visible root rs c Hb Hl) as (P & _). apply (Permutation_in _ P) in Ho. apply visible_In in Ho as (d & Hin & Ho).
  destruct (place_of_chain rs c d Hin) as (p & Hp & <-). rewrite render_suffix in Hw. apply in_map_iff in Hw as (x & <- & Hx).
  destruct (path_option_shape rs c p o x Hl Hp Ho Hx) as (_ & _ & Hl').
  destruct (built_valid root _ _ Hb Hl') as (_ & _ & Hopt & _). destruct (Hopt o Ho) as (_ & H2 & _).
  destruct (H2 x Hx) as (y & -> & _ & _ & Hy). split; [discriminate |]. rewrite in_app_iff. intros [[K | K] | K].
  - discriminate K.
  - destruct (Hy _ K) as [Q _]. discriminate Q.
  - destruct (arg_kind o); cbn in K; intuition discriminate.
Qed.

Section Known.
Context (rs : list cmd) (c : cmd) (Hl : located root rs c).
Definition known (st : style) (k : argkind) (x : str) : bool := mems x (opts_array m (query_words rs c) st k).

Lemma style_eqb_eq a b : style_eqb a b = true <-> a = b.
Proof. destruct a, b; cbn; split; (reflexivity || discriminate || auto). Qed.
Lemma akind_eqb_eq a b : akind_eqb a b = true <-> a = b.
Proof. destruct a, b; cbn; split; (reflexivity || discriminate || auto). Qed.
Lemma known_iff st k x : known st k x = true <->
  exists p o, on_path rs c p /\ In o (c_options (snd p)) /\ In x (o_strings o) /\ arg_kind o = k /\ style_of x = st.
Proof.
  unfold known. split.
  - intros H. unfold mems in H. apply existsb_exists in H as (y & H & E). apply str_eqb_eq in E as <-.
    unfold opts_array in H. apply in_flat_map in H as (w & Hw & H). rewrite (query_words_eq rs c Hl) in Hw.
    apply in_flat_map in Hw as (o & Ho & Hw). destruct (get_options_visible root rs c Hb Hl) as (P & _). apply (Permutation_in _ P) in Ho.
    apply visible_In in Ho as (d & Hin & Ho). destruct (place_of_chain rs c d Hin) as (p & Hp & <-).
    rewrite render_suffix in Hw. apply in_map_iff in Hw as (y & <- & Hy).
    destruct (path_option_shape rs c p o y Hl Hp Ho Hy) as (Hs & He & _). rewrite (classify_shaped y (arg_kind o) Hs He) in H.
    destruct (style_eqb st (style_of y) && akind_eqb k (arg_kind o)) eqn:E; [| destruct H]. destruct H as [-> | []].
    apply andb_prop in E as [E1 E2]. apply style_eqb_eq in E1. apply akind_eqb_eq in E2. exists p, o. auto.
  - intros (p & o & Hp & Ho & Hx & Hk & Hst). unfold mems. apply existsb_exists. exists x. split; [| apply str_eqb_eq; reflexivity].
    destruct (visible_nearest (c :: rs) [] (snd p) o (chain_of_path rs c p Hp) Ho eq_refl) as (o' & Ho' & Hss).
    pose proof (proj1 (same_strings_In o o' x Hss) Hx) as Hx'.
    destruct (visible_In _ _ _ Ho') as (d & Hin & Hod). destruct (place_of_chain rs c d Hin) as (p' & Hp' & <-).
    pose proof (clear_options root Hd rs c p p' o o' x Hl Hp Hp' Ho Hx Hod Hx') as Ek.
    destruct (path_option_shape rs c p' o' x Hl Hp' Hod Hx') as (Hs & He & _).
    unfold opts_array. apply in_flat_map. exists (x ++ suffix_of (arg_kind o')). split.
    + rewrite (query_words_eq rs c Hl). apply in_flat_map. exists o'. split.
      * destruct (get_options_visible root rs c Hb Hl) as (P & _). apply (Permutation_in _ (Permutation_sym P)). exact Ho'.
      * rewrite render_suffix. apply in_map_iff. exists x. auto.
    + rewrite (classify_shaped x _ Hs He). rewrite (proj2 (style_eqb_eq st _) (eq_sym Hst)).
      rewrite (proj2 (akind_eqb_eq k (arg_kind o'))) by congruence. now left.
Qed.
Lemma known_option p o x st k : on_path rs c p -> In o (c_options (snd p)) -> In x (o_strings o) ->
  (known st k x = true <-> st = style_of x /\ k = arg_kind o).
Proof.
  intros Hp Ho Hx. rewrite known_iff. split.
  - intros (p' & o' & Hp' & Ho' & Hx' & Hk & Hst). split; [now symmetry |].
    rewrite <- Hk. apply (clear_options root Hd rs c p' p o' o x Hl Hp' Hp Ho' Hx' Ho Hx).
  - intros [-> ->]. exists p, o. auto.
Qed.
Lemma known_value p o x st k : on_path rs c p -> In o (c_options (snd p)) -> In x (o_strings o) ->
  known st k x = style_eqb st (style_of x) && akind_eqb k (arg_kind o).
Proof.
  intros Hp Ho Hx. apply eq_true_iff_eq. rewrite (known_option p o x st k Hp Ho Hx), andb_true_iff, style_eqb_eq, akind_eqb_eq. reflexivity.
Qed.
End Known.
End Options.
