(** * Proofs for C119. *)
From Verif Require Import Base PyStr Cli Generation YamlParser SpecRanges RangesProofs HelpConverterProofs StrUtilsProofs Settings SpecSettings.
Open Scope string_scope.
Open Scope list_scope.
Open Scope nat_scope.

Lemma digits_read x : forallb is_digit x = true -> forall acc, digits_value acc x = read_digits acc x.
Proof.
  induction x as [| c x IH]; intros H acc; [reflexivity |]. apply andb_true_iff in H as [Hc H]. cbn [digits_value read_digits]. rewrite Hc.
  replace (acc * 10 + (Z.of_N c - 48))%Z with (10 * acc + Z.of_N (c - 48))%Z; [now apply IH |].
  unfold is_digit in Hc. apply andb_true_iff in Hc as [Hc _]. apply N.leb_le in Hc. lia.
Qed.
Lemma digit_not_space c : is_digit c = true -> is_space c = false.
Proof.
  intros H. unfold is_digit in H. apply andb_true_iff in H as [H1 H2]. apply N.leb_le in H1, H2. unfold is_space.
  repeat match goal with |- _ || _ = false => apply orb_false_iff; split | |- _ && _ = false => apply andb_false_iff end;
    repeat rewrite N.leb_gt; try (apply N.eqb_neq; lia); lia.
Qed.
Lemma strip_digits x : forallb is_digit x = true -> strip_p is_space x = x.
Proof.
  intros H. assert (G : forall y, forallb is_digit y = true -> lstrip_p is_space y = y).
  { intros [| c y] Hy; [reflexivity |]. apply andb_true_iff in Hy as [Hc _]. cbn [lstrip_p]. now rewrite (digit_not_space c Hc). }
  unfold strip_p, rstrip_p. rewrite (G x H). rewrite (G (rev x)); [apply rev_involutive |]. apply forallb_forall. intros c Hc. rewrite forallb_forall in H. apply H. now apply in_rev.
Qed.
Lemma int_of_show n : int_of (show_nat n) = Some (Z.of_nat n).
Proof.
  unfold int_of. pose proof (show_nat_digits n) as Hd. rewrite strip_digits by exact Hd. pose proof (read_digits_show n) as Hr.
  destruct (show_nat_hd n) as (c & x & E & Hc). rewrite E in *. cbn [with_sign].
  destruct (N.eqb_spec c DASH) as [-> |]; [discriminate Hc |]. destruct (N.eqb_spec c PLUS) as [-> |]; [discriminate Hc |].
  unfold unsigned_int. rewrite Hc, digits_read, Hr by exact Hd. reflexivity.
Qed.
Lemma version_show parts : parts <> [] -> version (join [DOT] (map show_nat parts)) = Ok (map Z.of_nat parts).
Proof.
  intros Hn. unfold version. rewrite split_join_c.
  - clear Hn. induction parts as [| n l IH]; [reflexivity |]. cbn [map ints]. now rewrite int_of_show, IH.
  - destruct parts; [congruence | discriminate].
  - intros w Hw Hi. apply in_map_iff in Hw as (n & <- & _). pose proof (show_nat_digits n) as Hd. rewrite forallb_forall in Hd. discriminate (Hd _ Hi).
Qed.
Lemma ge_2_12 parts : tuple_ge (map Z.of_nat parts) [2; 12]%Z = true <-> since_2_12 parts.
Proof.
  unfold since_2_12. destruct parts as [| a [| b l]]; cbn [map tuple_ge app].
  - split; [discriminate |]. intros (a & b & rest & E & H). injection E as <- <- <-. lia.
  - destruct (Z.eqb_spec (Z.of_nat a) 2) as [E | E].
    + split; [discriminate |]. intros (a' & b & rest & X & H). injection X as <- <- <-. lia.
    + rewrite Z.ltb_lt. split; [intros H; exists a, 0, [0]; split; [reflexivity | lia] | intros (a' & b & rest & X & H); injection X as <- <- <-; lia].
  - destruct (Z.eqb_spec (Z.of_nat a) 2) as [E | E].
    + destruct (Z.eqb_spec (Z.of_nat b) 12) as [E2 | E2].
      * split; [intros _; exists a, b, (l ++ [0; 0]); split; [reflexivity | lia] | intros _; now destruct (map Z.of_nat l)].
      * rewrite Z.ltb_lt. split; [intros H; exists a, b, (l ++ [0; 0]); split; [reflexivity | lia] | intros (a' & b' & rest & X & H); injection X as <- <- <-; lia].
    + rewrite Z.ltb_lt. split; [intros H; exists a, b, (l ++ [0; 0]); split; [reflexivity | lia] | intros (a' & b' & rest & X & H); injection X as <- <- <-; lia].
Qed.
