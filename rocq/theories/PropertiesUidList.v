(** * C140: numbers of users and groups in Zsh *)
From Coq Require Import String.
From Verif Require Import Base Exec MimeFileProofs SpecMimeFile SpecZsh ZshSpecs SpecChoices UidList SpecUidList.
Open Scope string_scope.
Open Scope list_scope.

Lemma no_backslash x : ~ In BS x -> drop_backslashes x = x.
Proof.
  induction x as [|c x IH]; [reflexivity|]. intros H. assert (E : N.eqb c BS = false) by (apply N.eqb_neq; intros ->; apply H; now left).
  destruct x as [|d x]; cbn [drop_backslashes]; rewrite E; [reflexivity|]. f_equal. apply IH. intros X. apply H. now right.
Qed.
Lemma last_in (x : str) : x <> [] -> In (last x 0%N) x.
Proof.
  intros N. destruct (exists_last N) as (y & c & ->). rewrite last_last. apply in_app_iff. right. now left.
Qed.
Lemma described a b : ~ In COLON a -> ~ In BS a -> ~ In BS b -> zsh_describe (a ++ [COLON] ++ b) = (a, b).
Proof.
  intros C A B. unfold zsh_describe. rewrite upto_free; [|exact C|].
  - cbn [app tl]. now rewrite !no_backslash.
  - right. split; [reflexivity|]. intros E. destruct a as [|c a]; [discriminate E|]. apply A. rewrite <- E. apply last_in. discriminate.
Qed.
Lemma split_single c x : ~ In c x -> split_c c x = [x].
Proof. intros H. change x with (join [c] [x]) at 1. apply split_join_c; [discriminate|]. intros w [<- | []]. exact H. Qed.
Lemma join_no c sep (l : list str) : ~ In c sep -> (forall x, In x l -> ~ In c x) -> ~ In c (join sep l).
Proof.
  intros S. induction l as [|y l IH]; intros H; [intros []|].
  destruct l as [|z l]; [apply H; now left|]. change (join sep (y :: z :: l)) with (y ++ sep ++ join sep (z :: l)).
  rewrite !in_app_iff. intros [X | [X | X]]; [exact (H y (or_introl eq_refl) X)|tauto|]. revert X. apply IH. intros x X. apply H. now right.
Qed.
Lemma items_words (l : list str) : (forall w, In w l -> w <> [] /\ ~ In SP w /\ ~ In TAB w /\ ~ In LF w) ->
  array_words (flat_map (fun w => w ++ [LF]) l) = l.
Proof.
  unfold array_words. induction l as [|w l IH]; intros H; [reflexivity|]. cbn [flat_map].
  destruct (H w (or_introl eq_refl)) as (N & S & T & L).
  assert (E : split_c LF ((w ++ [LF]) ++ flat_map (fun w => w ++ [LF]) l) = w :: split_c LF (flat_map (fun w => w ++ [LF]) l)).
  { generalize (flat_map (fun w : str => w ++ [LF]) l). intros r. rewrite <- app_assoc. cbn [app]. clear - L. induction w as [|c w IH].
    - cbn [app split_c]. destruct (split_c LF r) eqn:E; [exfalso; exact (split_c_nonnil _ _ E)|]. now rewrite N.eqb_refl.
    - cbn [app split_c]. rewrite IH by (intros X; apply L; now right).
      assert (Q : N.eqb c LF = false) by (apply N.eqb_neq; intros ->; apply L; now left). now rewrite Q. }
  rewrite E. cbn [map concat]. rewrite split_single by exact T. cbn [app map concat]. rewrite split_single by exact S. cbn [app filter].
  destruct w; [congruence|]. f_equal. apply IH. intros x X. apply H. now right.
Qed.
Lemma awk_lines accounts : Forall well_formed accounts ->
  awk_numbers (getent accounts) = flat_map (fun w => w ++ [LF]) (map (fun a => a_number a ++ [COLON] ++ a_name a) accounts).
Proof.
  intros W. unfold awk_numbers, getent. rewrite read_print.
  - induction W as [|a l Wa W IH]; [reflexivity|]. cbn [map flat_map]. rewrite IH. f_equal.
    unfold account_line. rewrite split_join_c; [|discriminate|intros w H; apply (Wa w H)]. cbn [nth]. now rewrite <- !app_assoc.
  - apply Forall_map. eapply Forall_impl; [|exact W]. intros a Wa. apply join_no; [intros [E | []]; discriminate E|]. intros x X. apply (Wa x X).
Qed.

(** Zsh offers exactly the numbers, each with its name, in the order of the lines.  Missing: names with a
    blank, a tabulator or a backslash (see the refutations). *)
Theorem C140_zsh_partial : forall accounts, Forall well_formed accounts ->
  (forall a, In a accounts -> simple (a_name a) /\ simple (a_number a)) ->
  map zsh_describe (number_items (getent accounts)) = map (fun a => (a_number a, a_name a)) accounts.
Proof.
  intros accounts W S. unfold number_items. rewrite awk_lines by exact W. rewrite Forall_forall in W. rewrite items_words.
  - rewrite map_map. apply map_ext_in. intros a A. destruct (S a A) as (N & I).
    apply described; [|apply I|apply N]. apply (W a A). right. right. now left.
  - intros w X. apply in_map_iff in X as (a & <- & A). destruct (S a A) as ((N1 & N2 & N3) & I1 & I2 & I3).
    destruct (W a A (a_name a) (or_introl eq_refl)) as (_ & NL).
    destruct (W a A (a_number a) (or_intror (or_intror (or_introl eq_refl)))) as (_ & IL).
    split; [|split; [|split]].
    + destruct (a_number a); discriminate.
    + rewrite !in_app_iff. intros [X | [[X | []] | X]]; [tauto|discriminate X|tauto].
    + rewrite !in_app_iff. intros [X | [[X | []] | X]]; [tauto|discriminate X|tauto].
    + rewrite !in_app_iff. intros [X | [[X | []] | X]]; [tauto|discriminate X|tauto].
Qed.
Print Assumptions C140_zsh_partial.

(** A group of a domain: the second word of its name is offered as if it were a number. *)
Theorem C140_blank_refuted : exists accounts text, Forall well_formed accounts /\
  In text (map fst (map zsh_describe (number_items (getent accounts)))) /\ ~ In text (map a_number accounts).
Proof.
  exists [Account (s "domain users") (s "x") (s "10000") [[]]], (s "users"). split; [|split].
  - constructor; [|constructor]. intros x X. destruct X as [<- | [<- | [<- | [<- | []]]]]; split; apply memc_false; reflexivity.
  - right. left. reflexivity.
  - intros [E | []]. discriminate E.
Qed.
Print Assumptions C140_blank_refuted.
(** The backslash in the name of a user of a domain is lost. *)
Theorem C140_backslash_refuted : exists accounts, Forall well_formed accounts /\
  map zsh_describe (number_items (getent accounts)) <> map (fun a => (a_number a, a_name a)) accounts.
Proof.
  exists [Account (s "DOM\joe") (s "x") (s "10001") [s "10000"; []; s "/home/joe"; s "/bin/zsh"]]. split.
  - constructor; [|constructor]. intros x X. destruct X as [<- | [<- | [<- | [<- | [<- | [<- | [<- | []]]]]]]]; split; apply memc_false; reflexivity.
  - intros E. vm_compute in E. discriminate E.
Qed.
Print Assumptions C140_backslash_refuted.

(** A case *)
Example C140_example :
  let accounts := [Account (s "root") (s "x") (s "0") [s "0"; s "The Superuser"; s "/root"; s "/bin/sh"]; Account (s "joe") (s "x") (s "1000") [s "100"]] in
  Forall well_formed accounts /\ (forall a, In a accounts -> simple (a_name a) /\ simple (a_number a)) /\
  number_items (getent accounts) = [s "0:root"; s "1000:joe"].
Proof.
  split; [|split; [|vm_compute; reflexivity]].
  - constructor; [|constructor; [|constructor]]; intros x X.
    + destruct X as [<- | [<- | [<- | [<- | [<- | [<- | [<- | []]]]]]]]; split; apply memc_false; reflexivity.
    + destruct X as [<- | [<- | [<- | [<- | []]]]]; split; apply memc_false; reflexivity.
  - intros a [<- | [<- | []]]; repeat split; apply memc_false; reflexivity.
Qed.
