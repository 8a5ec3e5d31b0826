(** * Proofs about command lines in one argument in Fish (C126) *)
From Verif Require Import Base PyStr KeyValueRun KeyValueRunProofs FishCommandLine SpecFishCommandLine.
Open Scope list_scope.
Open Scope nat_scope.

Lemma first_none sep x : ~ In sep x -> before_first sep x = x /\ after_first sep x = [].
Proof.
  induction x as [| c x IH]; intros H; [split; reflexivity |]. cbn [before_first after_first].
  destruct (N.eqb_spec c sep) as [-> | ]; [exfalso; apply H; now left |]. destruct IH as [-> ->]; [intros I; apply H; now right | split; reflexivity].
Qed.
Lemma subtract_longest k s1 s2 t c : s1 = t ++ c -> List.length c <= k -> starts_with c s2 = true ->
  (forall j, List.length c < j -> j <= k -> skipn (List.length s1 - j) s1 <> firstn j s2) -> subtract_loop k s1 s2 = t.
Proof.
  intros E Hk Hc Hno. induction k as [| k IH].
  - destruct c; [| cbn in Hk; lia]. rewrite app_nil_r in E. exact E.
  - cbn [subtract_loop]. destruct (Nat.eq_dec (List.length c) (S k)) as [L | L].
    + assert (skipn (List.length s1 - S k) s1 = c) as ->. { subst s1. rewrite app_length, L, Nat.add_sub, skipn_app, Nat.sub_diag, skipn_all. reflexivity. }
      apply starts_with_app in Hc as [y ->]. rewrite <- L, firstn_app, Nat.sub_diag, firstn_all, app_nil_r, str_eqb_refl.
      subst s1. now rewrite app_length, Nat.add_sub, firstn_app, Nat.sub_diag, firstn_all, app_nil_r.
    + destruct (str_eqb _ _) eqn:B; [apply str_eqb_eq in B; exfalso; apply (Hno (S k)); [lia | lia | exact B] |].
      apply IH; [lia |]. intros j J1 J2. apply Hno; lia.
Qed.
Lemma subtract_word before word c : in_front before -> ~ In SP c -> starts_with word c = true -> subtract_prefix_suffix (before ++ word) c = before.
Proof.
  intros Hb Hs Hc. unfold subtract_prefix_suffix. assert (List.length word <= List.length c) as L.
  { apply starts_with_app in Hc as [y ->]. rewrite app_length. lia. }
  apply (subtract_longest _ _ _ before word eq_refl); [rewrite app_length; lia | exact Hc |].
  intros j J1 J2 E. rewrite app_length in J2. apply Hs. rewrite <- (firstn_skipn j c), <- E. apply in_or_app. left.
  destruct Hb as [-> | [x ->]]; [cbn in J2; lia |]. rewrite skipn_app, in_app_iff. left. rewrite skipn_app. apply in_or_app. right.
  rewrite app_length. cbn [app List.length] in *. rewrite !app_length in J2. cbn [List.length] in J2. rewrite !app_length. cbn [List.length].
  replace (List.length x + 1 + List.length word - j - List.length x) with 0 by lia. now left.
Qed.

