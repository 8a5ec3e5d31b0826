(** * Proofs about defines and deprecated entries. *)
From Verif Require Import Base Dict Value StrUtils Cli DictSource SchemeNested Defines SpecDefines.

Lemma value_eqb_sym a b : value_eqb a b = value_eqb b a.
Proof.
  destruct (value_eqb_spec a b) as [->|N]; [|destruct (value_eqb_spec b a)]; try congruence.
  destruct (value_eqb_spec b b); congruence.
Qed.

Lemma dget_filter (d : list (value * value)) k k' :
  dget value_eqb k (filter (fun kv => negb (value_eqb (fst kv) k')) d) =
  if value_eqb k k' then None else dget value_eqb k d.
Proof.
  induction d as [|[a b] d IH]; cbn [filter dget fst].
  - destruct (value_eqb k k'); reflexivity.
  - destruct (value_eqb_spec a k') as [->|N]; cbn [negb].
    + rewrite IH. destruct (value_eqb_spec k k'); reflexivity.
    + cbn [dget]. destruct (value_eqb_spec k a) as [->|N2]; [|exact IH].
      destruct (value_eqb_spec a k'); [contradiction|reflexivity].
Qed.

Lemma getd_defined D x : let d := filter (fun kv => negb (value_eqb (fst kv) (VStr (s "prog")))) D in
  (exists v, defined D x v /\ getd x (VStr x) d = v) \/
  ((forall v, ~ defined D x v) /\ getd x (VStr x) d = VStr x).
Proof.
  intros d. unfold getd, vget, d. rewrite dget_filter.
  destruct (value_eqb_spec (VStr x) (VStr (s "prog"))) as [E|N].
  - right. split; [|reflexivity]. intros v [H _]. congruence.
  - destruct (dget value_eqb (VStr x) D) as [v|] eqn:E.
    + left. exists v. split; [split; [congruence|exact E]|reflexivity].
    + right. split; [|reflexivity]. intros v [_ H]. unfold vget in H. congruence.
Qed.

Lemma replace_replaced D v :
  replaced D v (replace_in (filter (fun kv => negb (value_eqb (fst kv) (VStr (s "prog")))) D) v).
Proof.
  set (d := filter _ D).
  induction v as [| | | |x|l IH|e IH] using value_ind'.
  1-4: constructor.
  - change (replaced D (VStr x) (getd x (VStr x) d)).
    destruct (getd_defined D x) as [(v & H1 & H2)|[H1 H2]]; fold d in H2; rewrite H2;
      [apply rep_name|apply rep_text]; auto.
  - apply rep_list. change (Forall2 (replaced D) l (map (replace_in d) l)).
    induction IH; cbn; constructor; auto.
  - apply rep_dict. change (Forall2 (fun kv kv' => fst kv = fst kv' /\ replaced D (snd kv) (snd kv')) e
              (map (fun kv => (fst kv, replace_in d (snd kv))) e)).
    induction IH as [|kv e [H1 H2] _ IH']; cbn; constructor; auto.
Qed.

Lemma is_defines_iff v : is_defines v = true <-> defines_document v.
Proof.
  unfold is_defines, defines_document. destruct v as [| | | | | |d];
    try (split; [discriminate|intros (D & E & _); discriminate]).
  destruct (vget (s "prog") d) as [p|] eqn:E.
  - destruct p as [| | | |p| |];
      try (split; [discriminate|intros (D & E2 & E3); injection E2 as <-; congruence]).
    destruct (str_eqb_spec p (s "%defines%")) as [->|N].
    + split; [intros _; eauto|reflexivity].
    + split; [discriminate|]. intros (D & E2 & E3). injection E2 as <-. congruence.
  - split; [discriminate|]. intros (D & E2 & E3). injection E2 as <-. congruence.
Qed.

Lemma split_defines_cons v docs : split_defines (v :: docs) =
  if is_defines v then match v with VDict d => Some (d, docs) | _ => None end
  else match split_defines docs with Some (d', r) => Some (d', v :: r) | None => None end.
Proof. destruct v; reflexivity. Qed.

Lemma split_none docs : (forall v, In v docs -> ~ defines_document v) -> split_defines docs = None.
Proof.
  induction docs as [|v docs IH]; intros H; [reflexivity|]. rewrite split_defines_cons.
  destruct (is_defines v) eqn:E; [exfalso; apply (H v (or_introl eq_refl)), is_defines_iff, E|].
  rewrite IH; [reflexivity|]. intros w Hw. apply H; right; exact Hw.
Qed.

Lemma split_some before D after : (forall v, In v before -> ~ defines_document v) ->
  vget (s "prog") D = Some (VStr (s "%defines%")) ->
  split_defines (before ++ VDict D :: after) = Some (D, before ++ after).
Proof.
  intros H E. induction before as [|v before IH]; cbn [app]; rewrite split_defines_cons.
  - rewrite (proj2 (is_defines_iff (VDict D))); [reflexivity|]. exists D; auto.
  - destruct (is_defines v) eqn:Ev; [exfalso; apply (H v (or_introl eq_refl)), is_defines_iff, Ev|].
    rewrite IH; [reflexivity|]. intros w Hw. apply H; right; exact Hw.
Qed.

Lemma Forall2_map_self {A B} (R : A -> B -> Prop) (f : A -> B) l : (forall x, R x (f x)) ->
  Forall2 R l (map f l).
Proof. intros H. induction l; cbn; constructor; auto. Qed.

Lemma defines_replaced before D after : (forall v, In v before -> ~ defines_document v) ->
  vget (s "prog") D = Some (VStr (s "%defines%")) ->
  Forall2 (replaced D) (before ++ after)
    (replace_defines_in_documents (before ++ VDict D :: after)).
Proof.
  intros H E. unfold replace_defines_in_documents. rewrite split_some by auto.
  apply Forall2_map_self. intros v. apply replace_replaced.
Qed.

Lemma no_defines docs : (forall v, In v docs -> ~ defines_document v) ->
  replace_defines_in_documents docs = docs.
Proof. intros H. unfold replace_defines_in_documents. rewrite split_none by auto. reflexivity. Qed.

(** ** Deprecated entries *)

Lemma dget_absent (d : list (value * value)) k : ~ In k (map fst d) -> dget value_eqb k d = None.
Proof.
  induction d as [|[a b] d IH]; intros H; [reflexivity|]. cbn.
  destruct (value_eqb_spec k a) as [->|N]; [exfalso; apply H; left; reflexivity|].
  apply IH. intros X; apply H; right; exact X.
Qed.
Lemma dget_in (d : list (value * value)) k : In k (map fst d) -> exists v, dget value_eqb k d = Some v.
Proof.
  induction d as [|[a b] d IH]; intros H; [destruct H|]. cbn.
  destruct (value_eqb_spec k a) as [->|N]; [eauto|]. apply IH.
  destruct H as [H|H]; [cbn in H; congruence|exact H].
Qed.
Lemma dget_mid (d1 d2 : list (value * value)) k v : ~ In k (map fst d1) ->
  dget value_eqb k (d1 ++ (k, v) :: d2) = Some v.
Proof.
  induction d1 as [|[a b] d IH]; intros H; cbn.
  - destruct (value_eqb_spec k k); congruence.
  - destruct (value_eqb_spec k a) as [->|N]; [exfalso; apply H; left; reflexivity|].
    apply IH. intros X; apply H; right; exact X.
Qed.
Lemma filter_absent k (d : list (value * value)) : ~ In k (map fst d) ->
  filter (fun kv => negb (value_eqb (fst kv) k)) d = d.
Proof.
  induction d as [|[a b] d IH]; intros H; [reflexivity|]. cbn.
  destruct (value_eqb_spec a k) as [->|N]; [exfalso; apply H; left; reflexivity|].
  cbn. rewrite IH; [reflexivity|]. intros X; apply H; right; exact X.
Qed.
Lemma drop_mid d1 k g d2 : ~ In (VStr k) (map fst (d1 ++ d2)) ->
  drop_key k (d1 ++ (VStr k, g) :: d2) = d1 ++ d2.
Proof.
  intros H. unfold drop_key. rewrite filter_app. cbn [filter fst].
  rewrite map_app in H. rewrite !filter_absent; try (intros X; apply H; apply in_or_app; auto).
  destruct (value_eqb_spec (VStr k) (VStr k)); [reflexivity|congruence].
Qed.
Lemma dget_app_absent (d1 d2 : list (value * value)) k : ~ In k (map fst d1) ->
  dget value_eqb k (d1 ++ d2) = dget value_eqb k d2.
Proof.
  induction d1 as [|[a b] d IH]; intros H; [reflexivity|]. cbn.
  destruct (value_eqb_spec k a) as [->|N]; [exfalso; apply H; left; reflexivity|].
  apply IH. intros X; apply H; right; exact X.
Qed.
Lemma absent_app (d1 d2 : list (value * value)) k : ~ In k (map fst (d1 ++ d2)) ->
  ~ In k (map fst d1) /\ ~ In k (map fst d2).
Proof. rewrite map_app. intros H. split; intros X; apply H, in_or_app; auto. Qed.

Lemma fix_modern o o' : modern o o' -> fix_option o = o' /\ fix_option o' = o'.
Proof.
  intros (d1 & g & d2 & -> & -> & H1 & H2). destruct (absent_app _ _ _ H1) as [H11 H12].
  destruct (absent_app _ _ _ H2) as [H21 H22]. unfold fix_option, vget. split.
  - rewrite dget_mid by auto. rewrite dget_app_absent by auto. cbn [dget].
    change (value_eqb (VStr (s "groups")) (VStr (s "group"))) with false. cbv iota.
    rewrite (dget_absent d2) by auto. rewrite drop_mid by auto. rewrite <- app_assoc. reflexivity.
  - rewrite app_assoc, dget_app_absent by auto. cbn [dget].
    change (value_eqb (VStr (s "group")) (VStr (s "groups"))) with false. reflexivity.
Qed.

Lemma fix_modern_both o o' : modern_both o o' -> fix_option o = o' /\ fix_option o' = o'.
Proof.
  intros (d1 & g & d2 & -> & -> & H1 & H2). destruct (absent_app _ _ _ H1) as [H11 H12].
  unfold fix_option, vget. split.
  - rewrite dget_mid by auto.
    assert (H3 : In (VStr (s "groups")) (map fst (d1 ++ (VStr (s "group"), g) :: d2))).
    { rewrite map_app in *. apply in_app_or in H2 as [H|H]; apply in_or_app; [left|right; right]; auto. }
    destruct (dget_in _ _ H3) as [x ->]. rewrite drop_mid by auto. reflexivity.
  - rewrite (dget_absent (d1 ++ d2)) by auto. reflexivity.
Qed.

Lemma dset_mid (d1 d2 : list (value * value)) k v w : ~ In k (map fst d1) ->
  dset value_eqb k w (d1 ++ (k, v) :: d2) = d1 ++ (k, w) :: d2.
Proof.
  induction d1 as [|[a b] d IH]; intros H; cbn.
  - destruct (value_eqb_spec k k); congruence.
  - destruct (value_eqb_spec k a) as [->|N]; [exfalso; apply H; left; reflexivity|].
    rewrite IH; [reflexivity|]. intros X; apply H; right; exact X.
Qed.

Lemma fix_commandline_options d1 l d2 : ~ In (VStr (s "options")) (map fst d1) ->
  fix_commandline (VDict (d1 ++ (VStr (s "options"), VList l) :: d2)) =
  VDict (d1 ++ (VStr (s "options"), VList (map fix_option l)) :: d2).
Proof.
  intros H. unfold fix_commandline, vget. rewrite dget_mid by auto. rewrite dset_mid by auto. reflexivity.
Qed.

Lemma same_import docs docs' o o' : one_option_differs docs docs' o o' ->
  fix_option o = fix_option o' ->
  (forall v, In v docs \/ In v docs' -> ~ defines_document v) ->
  dictionaries_to_commandline docs = dictionaries_to_commandline docs'.
Proof.
  intros (before & d1 & l1 & l2 & d2 & after & N & E1 & E2) F H.
  unfold dictionaries_to_commandline, prepare. rewrite !no_defines by auto. subst docs docs'.
  rewrite !map_app. cbn [map]. rewrite !fix_commandline_options by auto. rewrite !map_app. cbn [map].
  rewrite F. reflexivity.
Qed.

Lemma fix_option_again o : fix_option (fix_option o) = fix_option o.
Proof.
  destruct o as [| | | | | |d]; try reflexivity. unfold fix_option at 2 3.
  destruct (vget (s "group") d) as [g|] eqn:E; [|unfold fix_option; rewrite E; reflexivity].
  assert (A : vget (s "group") (drop_key (s "group") d) = None).
  { unfold vget, drop_key. rewrite dget_filter.
    destruct (value_eqb_spec (VStr (s "group")) (VStr (s "group"))); congruence. }
  destruct (vget (s "groups") d) as [x|] eqn:E2.
  - unfold fix_option. rewrite A. reflexivity.
  - unfold fix_option.
    assert (B : vget (s "group") (drop_key (s "group") d ++ [(VStr (s "groups"), VList [g])]) = None).
    { unfold vget in *. revert A. generalize (drop_key (s "group") d).
      induction l as [|[a b] l IH]; cbn [app dget]; [reflexivity|].
      destruct (value_eqb (VStr (s "group")) a); [discriminate|exact IH]. }
    rewrite B. reflexivity.
Qed.

Lemma dget_dset (d : list (value * value)) k v : dget value_eqb k (dset value_eqb k v d) = Some v.
Proof. apply dget_dset_same. exact value_eqb_spec. Qed.

Lemma dset_dset (d : list (value * value)) k v w :
  dset value_eqb k w (dset value_eqb k v d) = dset value_eqb k w d.
Proof.
  induction d as [|[a b] d IH]; cbn.
  - destruct (value_eqb_spec k k); [reflexivity|congruence].
  - destruct (value_eqb_spec k a) as [->|N]; cbn.
    + destruct (value_eqb_spec a a); [reflexivity|congruence].
    + destruct (value_eqb_spec k a); [congruence|]. rewrite IH. reflexivity.
Qed.

Lemma fix_commandline_again v : fix_commandline (fix_commandline v) = fix_commandline v.
Proof.
  destruct v as [| | | | | |d]; try reflexivity. unfold fix_commandline at 2 3.
  destruct (vget (s "options") d) as [x|] eqn:E; [|unfold fix_commandline; rewrite E; reflexivity].
  destruct x as [| | | | |l|]; try (unfold fix_commandline; rewrite E; reflexivity).
  unfold fix_commandline. unfold vget. rewrite dget_dset, dset_dset, map_map.
  rewrite (map_ext _ fix_option fix_option_again). reflexivity.
Qed.

Lemma fix_keeps_prog v : is_defines (fix_commandline v) = is_defines v.
Proof.
  destruct v as [| | | | | |d]; try reflexivity. unfold fix_commandline.
  destruct (vget (s "options") d) as [x|]; [|reflexivity]. destruct x; try reflexivity.
  unfold is_defines, vget. rewrite dget_dset_other; [reflexivity|exact value_eqb_spec|]. discriminate.
Qed.

Lemma import_again docs : (forall v, In v docs -> ~ defines_document v) ->
  dictionaries_to_commandline (documents_afterwards docs) = dictionaries_to_commandline docs.
Proof.
  intros H. unfold documents_afterwards. rewrite split_none by auto.
  unfold dictionaries_to_commandline, prepare. rewrite !no_defines; auto.
  - rewrite map_map. rewrite (map_ext _ fix_commandline fix_commandline_again). reflexivity.
  - intros v Hv. apply in_map_iff in Hv as (w & <- & Hw). intros D.
    apply is_defines_iff in D. rewrite fix_keeps_prog in D. apply is_defines_iff in D.
    apply (H w Hw D).
Qed.
