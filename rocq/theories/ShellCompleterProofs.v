(** * Proofs about the effect of generation on the caller's definition. *)
From Verif Require Import Base Dict Value StrUtils Cli DictSource SchemeValidator SpecCli CliProofs
  CliMore SpecScheme SchemeNested Generation SpecGeneration ShellCompleter.
Open Scope list_scope.

Lemma filter_absent k (d : dict) : vget (s k) d = None ->
  filter (fun kv => negb (value_eqb (fst kv) (VStr (s k)))) d = d.
Proof.
  unfold vget. induction d as [|[a b] d IH]; [reflexivity|]. cbn [dget filter fst].
  destruct (value_eqb (VStr (s k)) a) eqn:E; [discriminate|].
  intros H. rewrite IH by auto.
  assert (E2 : value_eqb a (VStr (s k)) = false).
  { destruct (value_eqb_spec a (VStr (s k))) as [->|]; [|reflexivity].
    destruct (value_eqb_spec (VStr (s k)) (VStr (s k))); congruence. }
  rewrite E2. reflexivity.
Qed.

Lemma alias_unchanged inner d : vget (s "separator") d = None -> vget (s "duplicates") d = None ->
  snd (list_alias inner (Some d)) = Some d.
Proof.
  intros H1 H2. destruct d as [|kv d]; [reflexivity|]. set (D := kv :: d) in *.
  unfold list_alias. subst D. unfold pop. rewrite (filter_absent "separator") by exact H1.
  rewrite (filter_absent "duplicates") by exact H2. reflexivity.
Qed.

Lemma ask_alias_unchanged inner args :
  (forall d rest, args = VDict d :: rest -> vget (s "separator") d = None /\ vget (s "duplicates") d = None) ->
  snd (ask_list_alias inner args) = args.
Proof.
  intros H. destruct args as [|[| | | | | |d] rest]; try reflexivity.
  destruct (H d rest eq_refl) as [H1 H2]. pose proof (alias_unchanged inner d H1 H2) as E.
  unfold ask_list_alias. destruct (list_alias inner (Some d)) as [c d']. cbn in E. subst d'. reflexivity.
Qed.

Lemma ask_all_unchanged l : (forall x, In x l -> snd (ask x) = x) -> snd (ask_all ask l) = l.
Proof.
  induction l as [|x l IH]; intros H; [reflexivity|]. cbn [ask_all].
  specialize (H x (or_introl eq_refl)) as Hx. destruct (ask x) as [c x']. cbn in Hx. subst x'.
  assert (IH' : snd (ask_all ask l) = l) by (apply IH; intros; apply H; right; auto).
  destruct (ask_all ask l) as [cs l']. cbn in *. subst l'. reflexivity.
Qed.

Lemma ask_entries_unchanged l : (forall x, In x (flat_map entry_completer l) -> snd (ask x) = x) ->
  snd (ask_entries ask l) = l.
Proof.
  induction l as [|x l IH]; intros H; [reflexivity|].
  assert (IH' : snd (ask_entries ask l) = l)
    by (apply IH; intros; apply H; cbn; apply in_or_app; right; auto).
  destruct x as [| | | | |[|k [|d [|co r]]]|]; cbn [ask_entries];
    try (destruct (ask_entries ask l) as [cs l']; cbn in *; subst l'; reflexivity).
  assert (E : snd (match co with VNone => ([], VNone) | _ => ask co end) = co).
  { destruct co; try reflexivity; apply H; cbn; left; reflexivity. }
  destruct (match co with VNone => ([], VNone) | _ => ask co end) as [c co'].
  destruct (ask_entries ask l) as [cs l']. cbn in *. subst. reflexivity.
Qed.

Lemma no_own_below v y : no_own_list v -> In y (children v) -> no_own_list y.
Proof.
  intros H Hy enc x Hi. destruct (inside_any _ ([] ++ [name_of v]) _ _ _ Hi) as [enc'' Hi'].
  apply (inside_below _ _ _ _ _ Hy) in Hi'. apply (H enc'' x Hi').
Qed.

Lemma ask_eq name args : ask (VList (VStr name :: args)) =
  let '(cs, args') := ask_inside ask name args in
  ((name, args) :: cs, VList (VStr name :: args')).
Proof. reflexivity. Qed.

Lemma ask_unchanged v : no_own_list v -> snd (ask v) = v.
Proof.
  induction v as [v IH] using (Wf_nat.induction_ltof1 _ vsize). unfold Wf_nat.ltof in IH. intros N.
  assert (IHc : forall x, In x (children v) -> snd (ask x) = x).
  { intros x Hx. apply IH; [apply children_size; auto|apply (no_own_below v); auto]. }
  pose proof (N [] v (inside_self _ _)) as Nv.
  destruct v as [| | | | |[|x args]|]; try reflexivity.
  destruct x as [| | | |name| |]; try reflexivity.
  rewrite ask_eq. enough (E : snd (ask_inside ask name args) = args).
  { destruct (ask_inside ask name args) as [cs a]. cbn in E. subst a. reflexivity. }
  unfold ask_inside.
  destruct (str_eqb_spec name (s "file_list")) as [->|N1].
  { apply ask_alias_unchanged. intros d rest ->. split.
    - destruct (vget (s "separator") d) eqn:E; [|reflexivity]. exfalso. apply Nv.
      exists (s "file_list"), d, rest. rewrite E. repeat split; auto. left; discriminate.
    - destruct (vget (s "duplicates") d) eqn:E; [|reflexivity]. exfalso. apply Nv.
      exists (s "file_list"), d, rest. rewrite E. repeat split; auto. right; discriminate. }
  destruct (str_eqb_spec name (s "directory_list")) as [->|N2].
  { apply ask_alias_unchanged. intros d rest ->. split.
    - destruct (vget (s "separator") d) eqn:E; [|reflexivity]. exfalso. apply Nv.
      exists (s "directory_list"), d, rest. rewrite E. repeat split; auto. left; discriminate.
    - destruct (vget (s "duplicates") d) eqn:E; [|reflexivity]. exfalso. apply Nv.
      exists (s "directory_list"), d, rest. rewrite E. repeat split; auto. right; discriminate. }
  destruct (str_eqb_spec name (s "combine")) as [->|N3].
  { destruct args as [|[| | | | |l|] [|]]; try reflexivity. rewrite children_combine in IHc.
    pose proof (ask_all_unchanged l IHc) as E. destruct (ask_all ask l). cbn in *. subst. reflexivity. }
  destruct (str_eqb_spec name (s "key_value_list")) as [->|N4].
  { destruct args as [|a [|b [|[| | | | |l|] r]]]; try reflexivity. rewrite children_kvl in IHc.
    pose proof (ask_entries_unchanged l IHc) as E. destruct (ask_entries ask l). cbn in *. subst. reflexivity. }
  destruct (str_eqb_spec name (s "key_value_pair")) as [->|N5].
  { destruct args as [|a [|[| | | | |l|] r]]; try reflexivity. rewrite children_kvp in IHc.
    pose proof (ask_entries_unchanged l IHc) as E. destruct (ask_entries ask l). cbn in *. subst. reflexivity. }
  destruct (str_eqb_spec name (s "list")) as [->|N6].
  { destruct args as [|a r]; try reflexivity. rewrite children_list in IHc.
    pose proof (IHc a (or_introl eq_refl)) as E. destruct (ask a). cbn in *. subst. reflexivity. }
  destruct (str_eqb_spec name (s "prefix")) as [->|N7].
  { destruct args as [|a [|b [|]]]; try reflexivity. rewrite children_prefix in IHc.
    pose proof (IHc b (or_introl eq_refl)) as E. destruct (ask b). cbn in *. subst. reflexivity. }
  reflexivity.
Qed.

Lemma ask_complete_unchanged o : (forall l, o = Some l -> no_own_list (VList l)) ->
  snd (ask_complete o) = o.
Proof.
  destruct o as [l|]; [|reflexivity]. intros H. pose proof (ask_unchanged _ (H l eq_refl)) as E.
  unfold ask_complete. destruct (ask (VList l)) as [cs v]. cbn in E. subst v. reflexivity.
Qed.

Lemma ask_options_unchanged l : (forall o x, In o l -> o_complete o = Some x -> no_own_list (VList x)) ->
  snd (ask_options l) = l.
Proof.
  induction l as [|o l IH]; intros H; [reflexivity|]. cbn [ask_options].
  assert (IH' : snd (ask_options l) = l) by (apply IH; intros o' x ?; apply H; right; auto).
  assert (E : snd (ask_complete (o_complete o)) = o_complete o).
  { apply ask_complete_unchanged. intros x. apply H. left; auto. }
  destruct (ask_complete (o_complete o)) as [c co], (ask_options l) as [cs l']. cbn in *. subst.
  destruct o; reflexivity.
Qed.

Lemma ask_positionals_unchanged l : (forall p, In p l -> no_own_list (VList (p_complete p))) ->
  snd (ask_positionals l) = l.
Proof.
  induction l as [|p l IH]; intros H; [reflexivity|]. cbn [ask_positionals].
  assert (IH' : snd (ask_positionals l) = l) by (apply IH; intros o' ?; apply H; right; auto).
  assert (E : snd (ask_complete (Some (p_complete p))) = Some (p_complete p)).
  { apply ask_complete_unchanged. intros x Ex. injection Ex as <-. apply H. left; auto. }
  destruct (ask_complete (Some (p_complete p))) as [c co], (ask_positionals l) as [cs l'].
  cbn in E, IH'. subst. destruct p; reflexivity.
Qed.

Fixpoint generate_all (l : list cmd) : list call * list cmd :=
  match l with
  | [] => ([], [])
  | x :: l' => let '(a, x') := generate x in let '(b, l'') := generate_all l' in (a ++ b, x' :: l'')
  end.
Lemma generate_eq c : generate c =
  let '(c1, options') := ask_options (c_options c) in
  let '(c2, positionals') := ask_positionals (c_positionals c) in
  let '(c3, subcommands') := match c_subcommands c with
                             | None => ([], None)
                             | Some l => let '(cs, l') := generate_all l in (cs, Some l')
                             end in
  (c1 ++ c2 ++ c3,
   Cmd (c_prog c) (c_help c) (c_aliases c) (c_wraps c) (c_abbrev_cmds c) (c_abbrev_opts c)
     (c_inherit c) options' positionals' subcommands').
Proof. destruct c; reflexivity. Qed.

Lemma generate_all_unchanged l : (forall x, In x l -> snd (generate x) = x) ->
  snd (generate_all l) = l.
Proof.
  induction l as [|x l IH]; intros H; [reflexivity|]. cbn [generate_all].
  specialize (H x (or_introl eq_refl)) as Hx. destruct (generate x) as [c x']. cbn in Hx. subst x'.
  assert (IH' : snd (generate_all l) = l) by (apply IH; intros; apply H; right; auto).
  destruct (generate_all l) as [cs l']. cbn in *. subst l'. reflexivity.
Qed.

Lemma generate_unchanged root : plain_lists root -> snd (generate root) = root.
Proof.
  induction root as [c IH] using cmd_subs_ind. intros P.
  destruct (P [] c (located_root c)) as [H1 H2]. rewrite generate_eq.
  pose proof (ask_options_unchanged _ H1) as E1. pose proof (ask_positionals_unchanged _ H2) as E2.
  assert (E3 : snd (generate_all (subs c)) = subs c).
  { apply generate_all_unchanged. intros x Hx. apply IH; [exact Hx|].
    intros ps d L. apply (P (ps ++ [c])). apply located_down with (sub := x); auto. }
  destruct (ask_options (c_options c)) as [c1 x1], (ask_positionals (c_positionals c)) as [c2 x2].
  cbn in E1, E2. subst x1 x2. unfold subs in E3. destruct c as [? ? ? ? ? ? ? ? ? [l|]]; cbn in *.
  - destruct (generate_all l) as [c3 x3]. cbn in *. subst. reflexivity.
  - reflexivity.
Qed.

(** ** Every completer of the definition is asked *)
Lemma asked_all l x : In x l -> incl (fst (ask x)) (fst (ask_all ask l)).
Proof.
  induction l as [| y l IH]; [easy |]. cbn [ask_all]. destruct (ask y) as [c y'] eqn:Ey, (ask_all ask l) as [cs l'] eqn:El. cbn [fst] in *.
  intros [<- | H]; [rewrite Ey; apply incl_appl, incl_refl | apply incl_appr, (IH H)].
Qed.
Lemma asked_entries l x : In x (flat_map entry_completer l) -> incl (fst (ask x)) (fst (ask_entries ask l)).
Proof.
  induction l as [| e l IH]; [easy |]. cbn [flat_map]. rewrite in_app_iff. intros H.
  destruct e as [| | | | |[|k [|d [|co r]]]|]; cbn [ask_entries];
    try (destruct (ask_entries ask l) as [cs l']; cbn [fst] in *; destruct H as [H | H]; [destruct H | exact (IH H)]).
  destruct H as [H | H].
  - assert (E : (match co with VNone => ([], VNone) | _ => ask co end) = ask x).
    { destruct co; cbn in H; try (destruct H as [<- | []]; reflexivity); destruct H. }
    rewrite E. destruct (ask x) as [c x'], (ask_entries ask l) as [cs l']. apply incl_appl, incl_refl.
  - destruct (match co with VNone => ([], VNone) | _ => ask co end) as [c co']. destruct (ask_entries ask l) as [cs l']. cbn [fst] in *. apply incl_appr, (IH H).
Qed.
Lemma asked_child v x : In x (children v) -> incl (fst (ask x)) (fst (ask v)).
Proof.
  destruct v as [| | | | |[|n args]|]; try easy. destruct n as [| | | |name| |]; try easy.
  rewrite ask_eq. enough (G : In x (children (VList (VStr name :: args))) -> incl (fst (ask x)) (fst (ask_inside ask name args))).
  { intros H. specialize (G H). destruct (ask_inside ask name args) as [cs a]. cbn [fst] in *. now apply incl_tl. }
  unfold ask_inside.
  destruct (str_eqb_spec name (s "file_list")) as [-> | N1]; [easy |].
  destruct (str_eqb_spec name (s "directory_list")) as [-> | N2]; [easy |].
  destruct (str_eqb_spec name (s "combine")) as [-> | N3].
  { destruct args as [|[| | | | |l|] [|]]; try easy. rewrite children_combine. intros H. pose proof (asked_all l x H) as K. now destruct (ask_all ask l). }
  destruct (str_eqb_spec name (s "key_value_list")) as [-> | N4].
  { destruct args as [|a [|b [|[| | | | |l|] r]]]; try easy. rewrite children_kvl. intros H. pose proof (asked_entries l x H) as K. now destruct (ask_entries ask l). }
  destruct (str_eqb_spec name (s "key_value_pair")) as [-> | N5].
  { destruct args as [|a [|[| | | | |l|] r]]; try easy. rewrite children_kvp. intros H. pose proof (asked_entries l x H) as K. now destruct (ask_entries ask l). }
  destruct (str_eqb_spec name (s "list")) as [-> | N6].
  { destruct args as [|a r]; try easy. rewrite children_list. intros [<- | []]. destruct (ask a). apply incl_refl. }
  destruct (str_eqb_spec name (s "prefix")) as [-> | N7].
  { destruct args as [|a [|b [|]]]; try easy. rewrite children_prefix. intros [<- | []]. destruct (ask b). apply incl_refl. }
  unfold children. destruct (str_eqb_spec name (s "combine")); [congruence |]. destruct (str_eqb_spec name (s "key_value_list")); [congruence |].
  destruct (str_eqb_spec name (s "key_value_pair")); [congruence |]. destruct (str_eqb_spec name (s "list")); [congruence |].
  destruct (str_eqb_spec name (s "prefix")); [congruence |]. easy.
Qed.
Lemma asked_inside v enc name args : inside [] v enc (VList (VStr name :: args)) -> In (name, args) (fst (ask v)).
Proof.
  intros H. assert (G : forall enc x, inside [] v enc x -> incl (fst (ask x)) (fst (ask v))).
  { clear. intros enc x H. induction H as [| enc' x y H IH Hy]; [apply incl_refl |]. eapply incl_tran; [apply asked_child; exact Hy | exact IH]. }
  apply (G _ _ H). rewrite ask_eq. destruct (ask_inside ask name args). now left.
Qed.
Lemma asked_complete l : fst (ask_complete (Some l)) = fst (ask (VList l)).
Proof. unfold ask_complete. destruct (ask (VList l)) as [cs v]. now destruct v. Qed.
Lemma asked_options l o x : In o l -> o_complete o = Some x -> incl (fst (ask (VList x))) (fst (ask_options l)).
Proof.
  induction l as [| p l IH]; [easy |]. intros Hi Ho. cbn [ask_options].
  destruct (ask_complete (o_complete p)) as [c co] eqn:E, (ask_options l) as [cs l'] eqn:El. cbn [fst] in *. destruct Hi as [-> | Hi].
  - rewrite Ho in E. rewrite <- asked_complete, E. apply incl_appl, incl_refl.
  - apply incl_appr, (IH Hi Ho).
Qed.
Lemma asked_positionals l p : In p l -> incl (fst (ask (VList (p_complete p)))) (fst (ask_positionals l)).
Proof.
  induction l as [| q l IH]; [easy |]. intros Hi. cbn [ask_positionals].
  destruct (ask_complete (Some (p_complete q))) as [c co] eqn:E, (ask_positionals l) as [cs l'] eqn:El. cbn [fst] in *. destruct Hi as [-> | Hi].
  - rewrite <- asked_complete, E. apply incl_appl, incl_refl.
  - apply incl_appr, (IH Hi).
Qed.
Lemma asked_all_commands l c : In c l -> incl (fst (generate c)) (fst (generate_all l)).
Proof.
  induction l as [| d l IH]; [easy |]. intros Hi. cbn [generate_all]. destruct (generate d) as [a d'] eqn:E, (generate_all l) as [b l'] eqn:El. cbn [fst] in *.
  destruct Hi as [-> | Hi]; [rewrite E; apply incl_appl, incl_refl | apply incl_appr, (IH Hi)].
Qed.
Lemma generate_calls c : fst (generate c) = fst (ask_options (c_options c)) ++ fst (ask_positionals (c_positionals c))
  ++ match c_subcommands c with None => [] | Some l => fst (generate_all l) end.
Proof.
  rewrite generate_eq. destruct (ask_options (c_options c)) as [? ?], (ask_positionals (c_positionals c)) as [? ?]. destruct (c_subcommands c) as [subs' |]; [| reflexivity].
  now destruct (generate_all subs').
Qed.
Lemma asked_commands root ps c : located root ps c -> incl (fst (generate c)) (fst (generate root)).
Proof.
  intros H. induction H as [| ps c sub H IH Hs]; [apply incl_refl |]. eapply incl_tran; [| exact IH]. rewrite (generate_calls c).
  apply incl_appr, incl_appr. unfold subs in Hs. destruct (c_subcommands c) as [l |]; [now apply asked_all_commands | destruct Hs].
Qed.
