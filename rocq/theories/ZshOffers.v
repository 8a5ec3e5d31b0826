(** * What [_arguments] offers for the specifications of a command. *)
From Verif Require Import Base Value StrUtils Cli CliProofs CliMore ParserPaths SpecCli SpecParser SpecOffered SpecZsh SpecZshFunction.
Open Scope list_scope.

Lemma same_strings_refl o : same_strings o o = true.
Proof. unfold same_strings. apply forallb_forall. intros x _. apply Nat.eqb_refl. Qed.
Lemma same_strings_share o p : o_strings o <> [] -> same_strings o p = true -> exists x, In x (o_strings o) /\ In x (o_strings p).
Proof.
  intros Hn H. unfold same_strings in H. rewrite forallb_forall in H. destruct (o_strings o) as [| x l] eqn:E; [congruence |].
  exists x. split; [now left |]. specialize (H x (or_introl eq_refl)). apply Nat.eqb_eq in H.
  apply (proj2 (count_occ_In str_eq_dec (o_strings p) x)). rewrite <- H. apply (proj1 (count_occ_In str_eq_dec (x :: l) x)). now left.
Qed.
Lemma first_such {A} (f : A -> bool) l : existsb f l = true -> exists a x b, l = a ++ x :: b /\ f x = true /\ forall y, In y a -> f y = false.
Proof.
  induction l as [| y l IH]; [discriminate |]. cbn [existsb]. destruct (f y) eqn:E.
  - intros _. exists [], y, l. split; [reflexivity |]. split; [exact E | intros z []].
  - intros H. destruct (IH H) as (a & x & b & -> & Hx & Ha). exists (y :: a), x, b. split; [reflexivity |]. split; [exact Hx |].
    intros z [<- | Hz]; auto.
Qed.
Lemma option_of_in chain owner o : option_of chain owner o -> option_in chain owner o.
Proof. intros (near & far & -> & H & _). split; [apply in_or_app; right; now left | exact H]. Qed.
Lemma option_in_of chain owner o : distinct_strings chain -> o_strings o <> [] -> option_in chain owner o -> option_of chain owner o.
Proof.
  intros Hd Hn [H1 H2]. destruct (first_such (fun d => existsb (same_strings o) (c_options d)) chain) as (near & d & far & -> & Hx & Ha).
  - apply existsb_exists. exists owner. split; [exact H1 |]. apply existsb_exists. exists o. split; [exact H2 | apply same_strings_refl].
  - apply existsb_exists in Hx as (p & Hp & Hs). destruct (same_strings_share o p Hn Hs) as (x & Hx1 & Hx2).
    destruct (Hd owner o d p x) as [-> ->]; auto; [split; auto | split; auto; apply in_or_app; right; now left |].
    exists near, far. split; [reflexivity |]. split; [exact Hp |]. intros d' p' Hd' Hp'. specialize (Ha d' Hd').
    destruct (same_strings p p') eqn:E; [| reflexivity]. rewrite <- Ha. symmetry. apply existsb_exists. exists p'. auto.
Qed.

Section Offers.
Variable option_action : opt -> str.
Variable positional_action : place -> pos -> str.
Variable command_action : place -> str.
Variables (ps : list cmd) (c : cmd).
Variable usable : opt -> Prop.
Variables (items : list item) (specs : list zspec).
Definition scope : list cmd := if xbool_eqb (c_inherit c) XFalse then [c] else c :: ps.
Hypothesis Hspecs : Forall2 (says option_action positional_action command_action) items specs.
Hypothesis Hitems : forall owner o x, In (ItemOption owner o x) items <-> (option_of scope owner o /\ In x (o_strings o)) /\ usable o.
Hypothesis Hdistinct : distinct_strings scope.
Hypothesis Hplain : forall owner o x, option_in scope owner o -> In x (o_strings o) -> x <> s "-".
Hypothesis Hstrings : forall owner o, option_in scope owner o -> o_strings o <> [].
Variable given : list str.
Hypothesis Hgiven : forall owner o y, option_in scope owner o -> In y (o_strings o) -> In y given -> usable o.

Lemma spec_item z : In (SpecOption z) specs -> exists owner o x conflicting, option_in scope owner o /\ In x (o_strings o) /\ usable o /\
  (forall y, In y conflicting <-> conflicts_with owner o y) /\ describes_option o conflicting (option_action o) x z.
Proof.
  intros H. destruct (Forall2_In_r _ _ _ _ Hspecs H) as (i & Hi & Hs). destruct i as [owner o x | |]; cbn [says] in Hs; try contradiction.
  destruct Hs as (conflicting & Hc & Hd). apply Hitems in Hi as [[H1 H2] H3]. apply option_of_in in H1. exists owner, o, x, conflicting. auto.
Qed.
Lemma item_spec owner o x : option_in scope owner o -> In x (o_strings o) -> usable o ->
  exists z conflicting, In (SpecOption z) specs /\ (forall y, In y conflicting <-> conflicts_with owner o y) /\ describes_option o conflicting (option_action o) x z.
Proof.
  intros H1 H2 H3. destruct (Forall2_In_l _ _ _ (ItemOption owner o x) Hspecs) as (z & Hz & Hs); [apply Hitems; split; [split; [apply option_in_of; eauto | exact H2] | exact H3] |].
  destruct z as [z |]; cbn [says] in Hs; [| contradiction]. destruct Hs as (conflicting & Hc & Hd). exists z, conflicting. auto.
Qed.
Lemma offers_wanted x : zsh_offers specs given x <-> wanted scope usable given x.
Proof.
  split.
  - intros (z & Hz & Hname & Hh & Hmany & Hex). destruct (spec_item z Hz) as (owner & o & x' & conflicting & Ho & Hx & Hu & Hc & Hd).
    rewrite (do_name _ _ _ _ _ Hd) in Hname. subst x'.
    exists owner, o. split; [exact Ho |]. split; [exact Hx |]. split; [exact Hu |]. split; [now rewrite (do_hidden _ _ _ _ _ Hd) in Hh |].
    assert (Hfin : forall d f y, option_in scope d f -> In y (o_strings f) -> In y given -> o_final f = true -> False).
    { intros d f y Hf Hy Hg Hfin. destruct (item_spec d f y Hf Hy (Hgiven _ _ _ Hf Hy Hg)) as (z' & c' & Hz' & Hc' & Hd').
      destruct (Hex y z' Hg Hz' (do_name _ _ _ _ _ Hd')) as [_ Hn]. apply Hn. apply (do_excludes _ _ _ _ _ Hd'). rewrite Hfin. now left. }
    split; [| split].
    + intros Hr y Hy Hg. destruct (item_spec owner o y Ho Hy (Hgiven _ _ _ Ho Hy Hg)) as (z' & c' & Hz' & Hc' & Hd').
      destruct (Hex y z' Hg Hz' (do_name _ _ _ _ _ Hd')) as [Hn _]. apply Hn. apply (do_excludes _ _ _ _ _ Hd').
      destruct (o_final o) eqn:Ef; [exfalso; eauto |]. right. auto.
    + intros p Hp Hne Hs y Hy Hg. assert (Hpi : option_in scope owner p) by (split; [apply Ho | exact Hp]).
      destruct (item_spec owner p y Hpi Hy (Hgiven _ _ _ Hpi Hy Hg)) as (z' & c' & Hz' & Hc' & Hd').
      destruct (Hex y z' Hg Hz' (do_name _ _ _ _ _ Hd')) as [Hn _]. apply Hn. apply (do_excludes _ _ _ _ _ Hd').
      destruct (o_final p) eqn:Ef; [exfalso; eauto |]. left. apply Hc'. exists o. split; [apply Ho |].
      split; [now rewrite opt_eqb_sym |]. split; [now apply share_group_sym | exact Hx].
    + intros d f Hf Hfn y Hy Hg. eauto.
  - intros (owner & o & Ho & Hx & Hu & Hh & Hr & Hg & Hf). destruct (item_spec owner o x Ho Hx Hu) as (z & conflicting & Hz & Hc & Hd).
    exists z. split; [exact Hz |]. split; [apply (do_name _ _ _ _ _ Hd) |]. split; [now rewrite (do_hidden _ _ _ _ _ Hd) |]. split.
    + destruct (o_repeatable o) eqn:Er; try (left; apply (do_many _ _ _ _ _ Hd); rewrite Er; discriminate).
      right. now apply Hr.
    + intros y z' Hy Hz' Hname. destruct (spec_item z' Hz') as (owner' & o' & y' & conflicting' & Ho' & Hy' & Hu' & Hc' & Hd').
      rewrite (do_name _ _ _ _ _ Hd') in Hname. subst y'.
      destruct (o_final o') eqn:Ef; [exfalso; exact (Hf owner' o' Ho' Ef y Hy' Hy) |].
      assert (Hno : forall w, In w (z_excludes z') -> (exists p, In p (c_options owner') /\ opt_eqb p o' = false /\ share_group o' p /\ In w (o_strings p)) \/ (o_repeatable o' = XFalse /\ In w (o_strings o'))).
      { intros w Hw. apply (do_excludes _ _ _ _ _ Hd') in Hw. rewrite Ef in Hw. destruct Hw as [Hw | Hw]; [left; now apply Hc' | now right]. }
      split.
      * intros Hw. destruct (Hno x Hw) as [(p & Hp & Hne & Hsh & Hxp) | [Hrr Hxo]].
        -- destruct (Hdistinct owner o owner' p x Ho) as [-> ->]; auto; [split; [apply Ho' | exact Hp] |].
           refine (Hg o' _ _ _ y Hy' Hy); [apply Ho' | now rewrite opt_eqb_sym | now apply share_group_sym].
        -- destruct (Hdistinct _ _ _ _ _ Ho Ho' Hx Hxo) as [-> ->]. exact (Hr Hrr y Hy' Hy).
      * intros Hw. destruct (Hno _ Hw) as [(p & Hp & _ & _ & Hxp) | [_ Hxo]].
        -- eapply (Hplain owner' p); [split; [apply Ho' | exact Hp] | exact Hxp | reflexivity].
        -- eapply (Hplain owner' o'); [exact Ho' | exact Hxo | reflexivity].
Qed.
End Offers.
