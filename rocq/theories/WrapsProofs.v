(** * Proofs for C120. *)
From Verif Require Import Base Shell Settings SpecShell ShellProofs SpecOutput OutputProofs SpecWraps Wraps.
Open Scope list_scope.

Lemma read_plain x : no_pattern x -> read_pattern x None = Some (map One x).
Proof.
  induction x as [| c x IH]; intros H; [reflexivity |]. assert (Hc := H c (or_introl eq_refl)). cbn [read_pattern map].
  destruct (N.eqb_spec c STAR) as [-> | _]; [discriminate |]. destruct (N.eqb_spec c QM) as [-> | _]; [discriminate |].
  destruct (N.eqb_spec c LBRK) as [-> | _]; [discriminate |]. destruct (N.eqb_spec c BS) as [-> | _]; [discriminate |].
  destruct (memc c (s "()")) eqn:E.
  - exfalso. cbn in E, Hc. repeat (apply orb_true_iff in E as [E | E]; [rewrite E in Hc; repeat rewrite orb_true_r in Hc; discriminate |]). discriminate E.
  - rewrite IH; [reflexivity |]. intros d Hd. apply H. now right.
Qed.
Lemma rests_plain x r : rests (map One x) (x ++ r) = [r].
Proof. induction x as [| c x IH]; [reflexivity |]. cbn [map app rests]. now rewrite N.eqb_refl. Qed.
Lemma fill_plain m rep : ~ In AMP rep -> ~ In BS rep -> fill m rep = rep.
Proof.
  induction rep as [| c r IH]; intros Ha Hb; [reflexivity |]. cbn [fill]. destruct (N.eqb_spec c AMP) as [-> | _]; [destruct Ha; now left |].
  destruct (N.eqb_spec c BS) as [-> | _]; [destruct Hb; now left |]. f_equal. apply IH; intros H; [apply Ha | apply Hb]; now right.
Qed.
Lemma here_plain x r rep : ~ In AMP rep -> ~ In BS rep -> replaced_here (map One x) rep (x ++ r) = Some (rep ++ r).
Proof. intros Ha Hb. unfold replaced_here. rewrite rests_plain. cbn [shortest]. now rewrite fill_plain. Qed.
Lemma substitute_plain cmd r rep : cmd <> [] -> no_pattern cmd -> hd 0%N cmd <> PERCENT -> hd 0%N cmd <> HASH -> ~ In AMP rep -> ~ In BS rep ->
  substitute (cmd ++ r) cmd rep = Some (rep ++ r).
Proof.
  intros Hn Hp H1 H2 Ha Hb. unfold substitute. destruct cmd as [| c cmd]; [congruence |]. cbn [hd] in H1, H2.
  destruct (N.eqb_spec c PERCENT) as [|_]; [congruence |]. destruct (N.eqb_spec c HASH) as [|_]; [congruence |].
  rewrite read_plain by exact Hp. f_equal. pose proof (here_plain (c :: cmd) r rep Ha Hb) as E.
  change (replaced_first (map One (c :: cmd)) rep ((c :: cmd) ++ r)) with
    (match replaced_here (map One (c :: cmd)) rep ((c :: cmd) ++ r) with Some x => x | None => c :: replaced_first (map One (c :: cmd)) rep (cmd ++ r) end).
  now rewrite E.
Qed.
