(** * Proofs about the helpers that complete keys and values in Fish. *)
From Coq Require Import Lia.
From Verif Require Import Base PyStr SpecValueList ValueList ValueListProofs KeyValue SpecKeyValue KeyValueProofs SpecKeyValueRun KeyValueRun KeyValueRunProofs FishKeyValue SpecFishKeyValue.
Open Scope list_scope.

Lemma index_nth x keys : forall i j, NoDup keys -> (index i x keys = Some j <-> (i <= j)%nat /\ nth_error keys (j - i) = Some x).
Proof.
  induction keys as [| k keys IH]; intros i j Hd; cbn [index].
  - split; [discriminate |]. intros [_ H]. destruct (j - i)%nat; discriminate.
  - inversion Hd as [| ? ? N1 N2]; subst. destruct (str_eqb k x) eqn:E.
    + apply str_eqb_eq in E as ->. split.
      * intros H. injection H as <-. rewrite Nat.sub_diag. split; [lia | reflexivity].
      * intros [L H]. destruct (j - i)%nat as [| m] eqn:D; [f_equal; lia |]. cbn [nth_error] in H. apply nth_error_In in H. contradiction.
    + rewrite (IH (S i) j N2). split.
      * intros [L H]. split; [lia |]. replace (j - i)%nat with (S (j - S i)) by lia. exact H.
      * intros [L H]. destruct (j - i)%nat as [| m] eqn:D.
        { cbn in H. injection H as ->. rewrite str_eqb_refl in E. discriminate. }
        split; [lia |]. replace (j - S i)%nat with m by lia. exact H.
Qed.
Lemma index0 x keys j : NoDup keys -> (index 0 x keys = Some j <-> nth_error keys j = Some x).
Proof. intros H. rewrite index_nth by exact H. rewrite Nat.sub_0_r. split; [tauto |]. intros E. split; [lia | exact E]. Qed.

(** A key that is given, and excludes the key. *)
Definition blocks (infos : list key_info) (typed : list str) (key : str) : Prop :=
  exists k, In k infos /\ In (k_key k) typed /\ In key (split_c SP (k_excludes k)).
Lemma removed_iff infos sep2 pairs i k : NoDup (map k_key infos) -> nth_error infos i = Some k ->
  (In i (removed infos sep2 pairs) <-> blocks infos (map (before_first sep2) pairs) (k_key k)).
Proof.
  intros Hd Hi. unfold removed. cbv zeta. rewrite in_flat_map. split.
  - intros (pair & Hp & H). destruct (index 0 (before_first sep2 pair) (map k_key infos)) as [j |] eqn:E; [| destruct H].
    apply (index0 _ _ _ Hd) in E. rewrite nth_error_map in E. destruct (nth_error infos j) as [kj |] eqn:Ej; [| discriminate]. injection E as E.
    apply in_flat_map in H as (x & Hx & H). destruct (index 0 x (map k_key infos)) as [m |] eqn:Em; [| destruct H]. destruct H as [<- | []].
    apply (index0 _ _ _ Hd) in Em. rewrite nth_error_map, Hi in Em. injection Em as <-.
    exists kj. split; [now apply nth_error_In in Ej |]. split; [| exact Hx]. rewrite E. now apply in_map.
  - intros (kj & Hj & Ht & Hx). apply in_map_iff in Ht as (pair & Ep & Hp). exists pair. split; [exact Hp |].
    apply In_nth_error in Hj as (j & Ej). assert (index 0 (before_first sep2 pair) (map k_key infos) = Some j) as ->.
    { apply index0; [exact Hd |]. rewrite nth_error_map, Ej, Ep. reflexivity. }
    rewrite Ej. apply in_flat_map. exists (k_key k). split; [exact Hx |].
    assert (index 0 (k_key k) (map k_key infos) = Some i) as ->; [| now left]. apply index0; [exact Hd |]. now rewrite nth_error_map, Hi.
Qed.
Lemma combine_seq {A} (l : list A) : forall n i a, In (i, a) (combine (List.seq n (length l)) l) -> (n <= i)%nat /\ nth_error l (i - n) = Some a.
Proof.
  induction l as [| b l IH]; intros n i a H; [destruct H |]. cbn [length List.seq combine] in H. destruct H as [H | H].
  - injection H as -> ->. rewrite Nat.sub_diag. split; [lia | reflexivity].
  - apply IH in H as [L H]. split; [lia |]. replace (i - n)%nat with (S (i - S n)) by lia. exact H.
Qed.
Lemma map_filter_combine {A} (l : list A) (f : nat -> bool) (g : A -> bool) : (forall i a, nth_error l i = Some a -> f i = g a) ->
  map snd (filter (fun ia => f (fst ia)) (combine (List.seq 0 (length l)) l)) = filter g l.
Proof.
  assert (forall n, (forall i a, nth_error l i = Some a -> f (n + i)%nat = g a) -> map snd (filter (fun ia => f (fst ia)) (combine (List.seq n (length l)) l)) = filter g l) as K; [| intros H; apply (K 0%nat); exact H].
  induction l as [| b l IH]; intros n H; [reflexivity |]. cbn [length List.seq combine filter fst].
  pose proof (H 0%nat b eq_refl) as H0. rewrite Nat.add_0_r in H0. rewrite H0.
  assert (map snd (filter (fun ia => f (fst ia)) (combine (List.seq (S n) (length l)) l)) = filter g l) as E.
  { apply IH. intros i a Hi. rewrite <- (H (S i) a Hi). f_equal. lia. }
  destruct (g b); [cbn [map snd]; now rewrite E | exact E].
Qed.
Definition blocked (infos : list key_info) (typed : list str) (key : str) : bool :=
  existsb (fun k => mems (k_key k) typed && mems key (split_c SP (k_excludes k))) infos.
Lemma blocked_iff infos typed key : blocked infos typed key = true <-> blocks infos typed key.
Proof.
  unfold blocked, blocks. rewrite existsb_exists. split; intros (k & I & H); exists k; (split; [exact I |]).
  - apply andb_true_iff in H as [H1 H2]. split; now apply CaptureProofs.mems_iff.
  - destruct H as [H1 H2]. apply andb_true_iff. split; now apply CaptureProofs.mems_iff.
Qed.
Lemma remaining_right infos sep2 pairs : NoDup (map k_key infos) ->
  remaining infos sep2 pairs = filter (fun k => negb (blocked infos (map (before_first sep2) pairs) (k_key k))) infos.
Proof.
  intros Hd. unfold remaining. apply (map_filter_combine infos (fun i => negb (existsb (Nat.eqb i) (removed infos sep2 pairs)))).
  intros i k Hi. f_equal. pose proof (removed_iff infos sep2 pairs i k Hd Hi) as R. rewrite <- blocked_iff in R.
  assert (existsb (Nat.eqb i) (removed infos sep2 pairs) = true <-> In i (removed infos sep2 pairs)) as E.
  { rewrite existsb_exists. split; [intros (x & I & H); apply Nat.eqb_eq in H as ->; exact I | intros I; exists i; split; [exact I | apply Nat.eqb_refl]]. }
  destruct (existsb (Nat.eqb i) _), (blocked infos _ _); try reflexivity; exfalso.
  - assert (false = true) as X by (apply R, E; reflexivity). discriminate.
  - assert (false = true) as X by (apply E, R; reflexivity). discriminate.
Qed.

Section List.
Variables (sep1 sep2 : N) (infos : list key_info) (complete : str -> list str) (pairs : list (str * option str)).
Hypothesis Hs : sep1 <> sep2.
Hypothesis Hp : Forall (pair_ok sep1 sep2) pairs.
Hypothesis Hd : NoDup (map k_key infos).
Let P := complete_pairs sep1 sep2 pairs.
Let els := map (pair_text sep2) pairs.
Lemma els_ok : Forall (list_element sep1) els.
Proof. apply Forall_map. apply (Forall_impl _ (fun p => pair_element sep1 sep2 p Hs) Hp). Qed.
Lemma split_pairs b : ~ In sep1 b -> split_c sep1 (P ++ b) = els ++ [b].
Proof. intros H. exact (split_typed sep1 els b els_ok H). Qed.
Lemma keys_of b : ~ In sep2 b -> map (before_first sep2) (els ++ [b]) = map fst pairs ++ [b].
Proof.
  intros H. unfold els. rewrite map_app, map_map. cbn [map]. rewrite before_first_none by exact H. f_equal.
  apply map_ext_in. intros p I. apply (pair_key sep1). now apply (proj1 (Forall_forall _ _) Hp).
Qed.
Lemma firstn_minus (a b : str) : firstn (length (a ++ b) - length b) (a ++ b) = a.
Proof. rewrite app_length, Nat.add_sub, firstn_app, Nat.sub_diag, firstn_all. cbn [firstn]. apply app_nil_r. Qed.
Lemma fish_keys b : ~ In sep1 b -> ~ In sep2 b ->
  list_lines sep1 sep2 infos complete (P ++ b) = map (key_line sep2 P) (filter (fun k => negb (blocked infos (map fst pairs ++ [b]) (k_key k))) infos).
Proof.
  intros H1 H2. unfold list_lines. rewrite split_pairs by exact H1. rewrite remaining_right, keys_of by assumption. cbv zeta. rewrite last_last.
  destruct b as [| c b].
  - rewrite app_nil_r. assert (match P with [] => true | _ => N.eqb (last P 0%N) sep1 end = true) as ->; [| reflexivity].
    destruct P as [| x y] eqn:E; [reflexivity |]. rewrite <- E. apply N.eqb_eq. unfold P, complete_pairs. apply before_last. intros En. unfold P, complete_pairs in E. rewrite En in E. discriminate.
  - assert (match P ++ c :: b with [] => true | _ => N.eqb (last (P ++ c :: b) 0%N) sep1 end = false) as ->.
    { assert (N.eqb (last (P ++ c :: b) 0%N) sep1 = false) as E.
      { apply N.eqb_neq. rewrite last_app_ne by discriminate. intros El. apply H1. rewrite <- El. apply last_in. discriminate. }
      rewrite E. destruct P; reflexivity. }
    rewrite (proj2 (memc_false sep2 (c :: b)) H2). now rewrite firstn_minus.
Qed.
Lemma fish_value k v : ~ In sep1 k -> ~ In sep2 k -> ~ In sep1 v ->
  list_lines sep1 sep2 infos complete (P ++ k ++ [sep2] ++ v) = map (app (P ++ k ++ [sep2])) (complete k).
Proof.
  intros H1 H2 H3. assert (~ In sep1 (k ++ [sep2] ++ v)) as H4.
  { intros I. apply in_app_or in I as [I | [I | I]]; [contradiction | congruence | contradiction]. }
  unfold list_lines. rewrite split_pairs by exact H4. cbv zeta. rewrite last_last. assert (k ++ [sep2] ++ v <> []) as Nn by (intros X; apply app_eq_nil in X as [_ X]; discriminate).
  assert (match P ++ k ++ [sep2] ++ v with [] => true | _ => N.eqb (last (P ++ k ++ [sep2] ++ v) 0%N) sep1 end = false) as ->.
  { assert (N.eqb (last (P ++ k ++ [sep2] ++ v) 0%N) sep1 = false) as E.
    { apply N.eqb_neq. rewrite last_app_ne by exact Nn. intros El. apply H4. rewrite <- El. now apply last_in. }
    rewrite E. destruct (P ++ k ++ [sep2] ++ v) eqn:X; [| reflexivity]. apply app_eq_nil in X as [_ X]. contradiction. }
  rewrite memc_sep, before_first_app, after_first_app by exact H2.
  replace (P ++ k ++ [sep2] ++ v) with ((P ++ k ++ [sep2]) ++ v) by now rewrite <- !app_assoc. now rewrite firstn_minus.
Qed.
Lemma stripped_value k v : ~ In sep2 v -> after_last [sep2] (P ++ k ++ [sep2] ++ v) = v.
Proof.
  intros H. replace (P ++ k ++ [sep2] ++ v) with ((P ++ k) ++ [sep2] ++ v) by now rewrite <- !app_assoc.
  apply after_last_app; [apply memc_In; now left |]. intros d I. apply memc_false. intros [<- | []]. contradiction.
Qed.
End List.

(** ** The arguments of C104 *)
Definition info_of (e : entry) : key_info :=
  KeyInfo (own_key e) (described e) (negb (str_eqb (value_command e) (s "false"))) (value_command e) (join [SP] (excluded e)).
Lemma quads_told l : quads (flat_map (fun e => [own_key e; described e; value_command e; join [SP] (excluded e)]) l) = map info_of l.
Proof. induction l as [| e l IH]; [reflexivity |]. cbn [flat_map app quads map]. now rewrite IH. Qed.
Lemma fish_triples_told l : fish_triples (flat_map (fun e => [e_key e; described e; value_command e]) l) =
  map (fun e => KeyInfo (e_key e) (described e) (negb (str_eqb (value_command e) (s "false"))) (value_command e) []) l.
Proof. induction l as [| e l IH]; [reflexivity |]. cbn [flat_map app fish_triples map]. now rewrite IH. Qed.
Lemma filter_map' {A B} (f : A -> B) (p : B -> bool) l : filter p (map f l) = map f (filter (fun x => p (f x)) l).
Proof. induction l as [| a l IH]; [reflexivity |]. cbn [map filter]. rewrite IH. now destruct (p (f a)). Qed.
Lemma in_split w l : (forall x, In x l -> ~ In SP x) -> w <> [] -> (In w (split_c SP (join [SP] l)) <-> In w l).
Proof.
  intros H Hw. pose proof (read_names_join l w H) as R. unfold read_names in R. rewrite filter_In in R. destruct w as [| c w]; [contradiction |]. intuition.
Qed.
Lemma NoDup_filter_map {A B} (f : A -> B) p l : NoDup (map f l) -> NoDup (map f (filter p l)).
Proof.
  induction l as [| a l IH]; intros H; [constructor |]. cbn [map] in H. inversion H as [| ? ? N1 N2]; subst. cbn [filter]. destruct (p a); [| auto].
  cbn [map]. constructor; [| auto]. intros K. apply N1. apply in_map_iff in K as (e & <- & He). apply filter_In in He as [He _]. now apply in_map.
Qed.
Lemma blocked_told test func l typed e : NoDup (map own_key l) -> (forall e, In e l -> own_key e <> []) -> (forall e x, In e l -> In x (excluded e) -> ~ In SP x) ->
  In e l -> applies test func own_key e = true ->
  (blocked (map info_of (filter (applies test func own_key) l)) typed (own_key e) = false <-> to_be_offered test func l typed (own_key e)).
Proof.
  intros Hd Hn He I A. rewrite <- not_true_iff_false, blocked_iff. unfold blocks, to_be_offered. split.
  - intros H. exists e. repeat split; try assumption. intros t It Tt At X. apply H. exists (info_of t). split; [apply in_map, filter_In; auto |].
    split; [exact Tt |]. apply in_split; [intros x Ix; now apply (He t x) | now apply Hn | exact X].
  - intros (e' & I' & E & _ & H) (k & Ik & T & X). apply in_map_iff in Ik as (t & <- & It). apply filter_In in It as [It At].
    apply (H t It T At). change (k_excludes (info_of t)) with (join [SP] (excluded t)) in X. apply (in_split (own_key e) (excluded t)); [intros x Ix; now apply (He t x) | now apply Hn | exact X].
Qed.
Lemma function_told l e : NoDup (map own_key l) -> In e l -> function_for (map info_of l) (own_key e) = Some (value_command e).
Proof.
  intros Hd I. unfold function_for. induction l as [| a l IH]; [destruct I |]. cbn [map] in Hd. inversion Hd as [| ? ? N1 N2]; subst. cbn [map find].
  change (k_key (info_of a)) with (own_key a). destruct (str_eqb (own_key a) (own_key e)) eqn:E.
  - destruct I as [-> | I]; [reflexivity |]. apply str_eqb_eq in E. exfalso. apply N1. rewrite E. now apply in_map.
  - destruct I as [-> | I]; [rewrite str_eqb_refl in E; discriminate |]. now apply IH.
Qed.

(** ** Keys that are printed *)
Definition info_printed (p : printed) : key_info :=
  KeyInfo (p_key p) (p_description p) (str_eqb (p_takes p) (s "=")) [] (join [SP] (p_excludes p) ++ if p_again p then [] else SP :: p_key p).
Lemma fish_read p : fine_key p -> printed_info (text_line p) = info_printed p.
Proof.
  intros (K & Ks & Ke & Kt & D & X).
  assert (~ In TAB ((if p_again p then [STAR] else []) ++ p_key p ++ p_takes p)) as H1.
  { intros H. apply in_app_or in H as [H | H]; [| apply in_app_or in H as [H | H]].
    - destruct (p_again p); [destruct H as [H | []]; discriminate | destruct H].
    - unfold word in K. tauto.
    - apply (takes_chars p TAB Kt) in H as [H | H]; discriminate. }
  assert (~ In TAB (join [SP] (p_excludes p))) as H2.
  { intros H. apply join_in in H as [H | (x & Hx & H)]; [discriminate |]. rewrite Forall_forall in X. pose proof (X x Hx) as Xx. unfold word in Xx. tauto. }
  assert (split_c TAB (text_line p) = [(if p_again p then [STAR] else []) ++ p_key p ++ p_takes p; p_description p; join [SP] (p_excludes p)]) as E.
  { unfold text_line. replace ((if p_again p then [STAR] else []) ++ p_key p ++ p_takes p ++ [TAB] ++ p_description p ++ [TAB] ++ join [SP] (p_excludes p))
      with (((if p_again p then [STAR] else []) ++ p_key p ++ p_takes p) ++ TAB :: (p_description p ++ TAB :: join [SP] (p_excludes p))) by (rewrite <- !app_assoc; reflexivity).
    rewrite split_c_app by exact H1. rewrite split_c_app by exact D. now rewrite split_c_word by exact H2. }
  unfold printed_info. rewrite E. cbv zeta. cbn [nth]. destruct K as (K & _).
  set (h := (if p_again p then [STAR] else []) ++ p_key p).
  assert (~ In 61%N h) as Hh. { intros I. unfold h in I. apply in_app_or in I as [I | I]; [| contradiction]. destruct (p_again p); [destruct I as [I | []]; discriminate | destruct I]. }
  replace ((if p_again p then [STAR] else []) ++ p_key p ++ p_takes p) with (h ++ p_takes p) by (unfold h; now rewrite <- app_assoc).
  assert ((if ends_with (s "=") (h ++ p_takes p) then (firstn (length (h ++ p_takes p) - 1) (h ++ p_takes p), true)
           else if ends_with (s "=?") (h ++ p_takes p) then (firstn (length (h ++ p_takes p) - 2) (h ++ p_takes p), false) else (h ++ p_takes p, false)) = (h, str_eqb (p_takes p) (s "="))) as ->.
  { destruct Kt as [<- | [<- | [<- | []]]].
    - rewrite app_nil_r, ends_eq, ends_eqq by exact Hh. reflexivity.
    - rewrite ends_with_app, app_length. change (length (s "=")) with 1%nat. rewrite Nat.add_sub, firstn_app, Nat.sub_diag, firstn_all. cbn [firstn]. rewrite app_nil_r. reflexivity.
    - assert (ends_with (s "=") (h ++ s "=?") = false) as ->.
      { unfold ends_with. rewrite rev_app_distr. reflexivity. }
      rewrite ends_with_app, app_length. change (length (s "=?")) with 2%nat. rewrite Nat.add_sub, firstn_app, Nat.sub_diag, firstn_all. cbn [firstn]. rewrite app_nil_r. reflexivity. }
  unfold info_printed, h. destruct (p_again p); cbn [app].
  - change (N.eqb STAR STAR) with true. cbn iota. reflexivity.
  - destruct (p_key p) as [| c k]; [contradiction |]. cbn [hd] in Ks. destruct (N.eqb_spec c STAR); [contradiction | reflexivity].
Qed.
Lemma blocked_printed l typed p : Forall fine_key l -> In p l -> (blocked (map info_printed l) typed (p_key p) = false <-> left l typed (p_key p)).
Proof.
  intros Hl I. rewrite Forall_forall in Hl. rewrite <- not_true_iff_false, blocked_iff. unfold blocks, left.
  assert (p_key p <> []) as Hn by apply (Hl p I).
  assert (forall t, In t l -> (In (p_key p) (split_c SP (k_excludes (info_printed t))) <-> In (p_key p) (p_excludes t) \/ (p_again t = false /\ p_key p = p_key t))) as G.
  { intros t It. destruct (Hl t It) as (K1 & _ & _ & _ & _ & K2). unfold info_printed. cbn [k_excludes].
    assert (forall y, In (p_key p) (split_c SP y) <-> In (p_key p) (read_names y)) as S.
    { intros y. unfold read_names. rewrite filter_In. destruct (p_key p); [contradiction |]. intuition. }
    rewrite S. destruct (p_again t).
    - rewrite app_nil_r, names_read' by exact K2. intuition discriminate.
    - rewrite names_read by assumption. intuition. }
  split.
  - intros H. split; [now apply in_map |]. intros t It Tt. split.
    + intros X. apply H. exists (info_printed t). split; [now apply in_map |]. split; [exact Tt |]. apply G; auto.
    + intros A E. apply H. exists (info_printed t). split; [now apply in_map |]. split; [exact Tt |]. apply G; auto.
  - intros [_ H] (k & Ik & Tk & X). apply in_map_iff in Ik as (t & <- & It). destruct (H t It Tk) as [H1 H2]. apply (G t It) in X as [X | [A X]]; [contradiction |]. apply (H2 A). now symmetry.
Qed.
Lemma split_two x : In TAB x -> exists a b l, split_c TAB x = a :: b :: l.
Proof.
  induction x as [| c x IH]; intros H; [destruct H |]. cbn [split_c]. destruct (N.eqb_spec c TAB) as [-> | Hc].
  - destruct (split_c TAB x) as [| b l] eqn:E; [now apply split_c_nonnil in E | eauto].
  - destruct H as [-> | H]; [contradiction |]. destruct (IH H) as (a & b & l & ->). eauto.
Qed.
Lemma infos_read lines : Forall (In TAB) lines -> printed_infos lines = map printed_info lines.
Proof.
  intros H. unfold printed_infos. assert (printed_descriptions lines = map (fun x => nth 1 (split_c TAB x) []) lines) as ->.
  { unfold printed_descriptions. induction H as [| x l Hx H IH]; [reflexivity |]. cbn [flat_map map]. rewrite IH. destruct (split_two x Hx) as (a & b & r & ->). reflexivity. }
  assert (forall pre, map (fun ik => let k := snd ik in KeyInfo (k_key k) (nth (fst ik) (pre ++ map (fun x => nth 1 (split_c TAB x) []) lines) []) (k_value k) (k_func k) (k_excludes k))
    (combine (List.seq (List.length pre) (List.length lines)) (map printed_info lines)) = map printed_info lines) as K; [| exact (K [])].
  clear H. induction lines as [| x l IH]; intros pre; [reflexivity |]. cbn [List.length List.seq map combine]. f_equal.
  - cbn [fst snd]. rewrite app_nth2, Nat.sub_diag by lia. unfold printed_info.
    set (k0 := if ends_with (s "=") _ then _ else _). destruct k0 as [key takes]. destruct (match key with [] => _ | _ => _ end) as [key' ex]. reflexivity.
  - specialize (IH (pre ++ [nth 1 (split_c TAB x) []])). rewrite app_length in IH. cbn [List.length] in IH. rewrite Nat.add_1_r in IH. rewrite <- app_assoc in IH. exact IH.
Qed.
Lemma text_line_tab p : In TAB (text_line p).
Proof. unfold text_line. rewrite !in_app_iff. cbn [In]. tauto. Qed.
