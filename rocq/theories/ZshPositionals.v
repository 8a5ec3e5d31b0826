(** * The positional arguments and sub-commands that zsh scripts complete. *)
From Verif Require Import Base Value StrUtils Cli CliProofs CliMore SpecCli When SpecParser SpecOffered ParserPaths SpecZsh SpecZshFunction ZshFunction.
Open Scope list_scope.

Section Completes.
Context (oa : opt -> str) (pa : place -> pos -> str) (ca : place -> str) (condition : str -> option str) (holds : str -> bool).
Context (root : cmd) (Hb : built root) (rs : list cmd) (c : cmd) (Hl : located root rs c).
Context (items : list item) (specs : list zspec) (usable : pos -> Prop).
Context (F : Forall2 (says oa pa ca) items specs).
Context (Hp : forall p q, In (ItemPositional p q) items <-> ((p = (rs, c) \/ In p (ancestors rs)) /\ In q (c_positionals (snd p))) /\ usable q).
Context (Hc : forall p, In (ItemCommands p) items <-> (p = (rs, c) \/ In p (ancestors rs)) /\ c_subcommands (snd p) <> None).
Context (positionals : list str) (Hs : selected positionals rs c).
Context (Hord : orderly usable c) (Hanc : forall d q, In d rs -> In q (c_positionals d) -> p_repeatable q = false).
Notation n := (List.length positionals).

Lemma f2_l {A B} (R : A -> B -> Prop) l1 l2 x : Forall2 R l1 l2 -> In x l1 -> exists y, In y l2 /\ R x y.
Proof. induction 1 as [| a b l1 l2 Hab H IH]; intros Hx; [destruct Hx |]. destruct Hx as [<- | Hx]; [exists b; split; [now left | exact Hab] |]. destruct (IH Hx) as (y & Hy & Hr). exists y. split; [now right | exact Hr]. Qed.
Lemma f2_r {A B} (R : A -> B -> Prop) l1 l2 y : Forall2 R l1 l2 -> In y l2 -> exists x, In x l1 /\ R x y.
Proof. induction 1 as [| a b l1 l2 Hab H IH]; intros Hy; [destruct Hy |]. destruct Hy as [<- | Hy]; [exists a; split; [now left | exact Hab] |]. destruct (IH Hy) as (x & Hx & Hr). exists x. split; [now right | exact Hr]. Qed.

Lemma taken_le ps : forall p, In p (ancestors ps) -> (taken (snd p :: fst p) <= taken ps)%Z.
Proof.
  induction ps as [| d ps IH]; intros p Hp0; [destruct Hp0 |]. cbn [ancestors] in Hp0. destruct Hp0 as [<- | Hp0]; [cbn [fst snd]; lia |].
  specialize (IH p Hp0). unfold taken in *. cbn [map sum fold_right] in *. pose proof (consumed_pos d). unfold sum in *. lia.
Qed.
Lemma taken_given ps d : selected positionals ps d -> (taken ps <= Z.of_nat n)%Z.
Proof.
  destruct ps as [| p ps]; [cbn; lia |]. intros (_ & w & [H1 Hw] & _). assert (Z.to_nat (taken (p :: ps) - 1) < n)%nat by (apply nth_error_Some; congruence). lia.
Qed.
Lemma ancestors_tail p l : In p (ancestors l) -> In (snd p) l.
Proof. induction l as [| d l IH]; intros H; [destruct H |]. cbn [ancestors] in H. destruct H as [<- | H]; [now left | right; now apply IH]. Qed.
Lemma valid_number p q : p = (rs, c) \/ In p (ancestors rs) -> In q (c_positionals (snd p)) -> (1 <= p_number q)%Z.
Proof.
  intros H Hq. assert (Hv : valid_command (snd p)).
  { destruct H as [-> | H]; [eapply built_valid; eauto | eapply built_valid; [exact Hb | exact (ancestors_located root rs c p Hl H)]]. }
  destruct Hv as (_ & _ & _ & Hv & _). now apply Hv.
Qed.
Lemma not_number p q : In p (ancestors rs) -> In q (c_positionals (snd p)) -> Z.to_nat (taken (fst p) + p_number q) <> S n.
Proof.
  intros H Hq. pose proof (taken_le rs p H) as T. pose proof (taken_given rs c Hs) as G. pose proof (consumed_le (snd p) q Hq) as C.
  pose proof (taken_nonneg (fst p)). unfold taken in *. cbn [map sum fold_right] in T. fold (sum (map consumed (fst p))) in T.
  pose proof (valid_number p q (or_intror H) Hq). lia.
Qed.
Lemma not_command p : In p (ancestors rs) -> Z.to_nat (taken (snd p :: fst p)) <> S n.
Proof. intros H. pose proof (taken_le rs p H) as T. pose proof (taken_given rs c Hs) as G. lia. Qed.

Theorem completes_offered act :
  (exists a, zsh_completes specs n a /\ za_action a = act) <->
  (exists q, In q (c_positionals c) /\ usable q /\ positional_offered positionals rs c q /\ act = pa (rs, c) q) \/
  (c_subcommands c <> None /\ subcommands_offered positionals rs c /\ act = ca (rs, c)).
Proof.
  pose proof (taken_nonneg rs) as T0. pose proof (taken_given rs c Hs) as G. split.
  - intros (a & (Ha & Hn) & Eact). destruct (f2_r _ _ _ _ F Ha) as (i & Hi & Hsay). destruct i as [owner o x | p q | p]; cbn [says] in Hsay; [destruct Hsay | |].
    + destruct Hsay as (Hnum & _ & Hact). apply Hp in Hi as [[Hpl Hq] Hu]. destruct (p_repeatable q) eqn:Er.
      * destruct Hn as [Hn | [_ Hn]]; [congruence |]. destruct Hpl as [-> | Hpl]; [| rewrite (Hanc (snd p) q) in Er; [discriminate | now apply ancestors_tail | exact Hq]].
        cbn [fst snd] in *. left. exists q. split; [exact Hq |]. split; [exact Hu |]. split; [| congruence]. split; [| exact Hs]. rewrite Er.
        destruct (Z.le_gt_cases (taken rs + p_number q - 1) (Z.of_nat n)) as [L | L]; [exact L | exfalso].
        destruct (ord_all _ _ Hord q (Z.of_nat n - taken rs + 1)%Z Hq Er) as (q' & Hq' & Hn' & Hu'); [lia |].
        assert (Er' : p_repeatable q' = false).
        { destruct (p_repeatable q') eqn:E'; [| reflexivity]. destruct (ord_last _ _ Hord q' q Hq' Hq E') as [-> | K]; lia. }
        assert (Hi' : In (ItemPositional (rs, c) q') items) by (apply Hp; auto).
        destruct (f2_l _ _ _ _ F Hi') as (z & Hz & Hsz). destruct z as [|b]; cbn [says] in Hsz; [destruct Hsz |]. destruct Hsz as (Hb' & _ & _). rewrite Er' in Hb'. cbn [fst] in Hb'.
        apply (Hn b Hz). rewrite Hb'. f_equal. lia.
      * destruct Hn as [Hn | [Hn _]]; [| congruence]. rewrite Hnum in Hn. injection Hn as Hn. destruct Hpl as [-> | Hpl]; [| exfalso; exact (not_number p q Hpl Hq Hn)].
        cbn [fst snd] in *. left. exists q. split; [exact Hq |]. split; [exact Hu |]. split; [| congruence]. split; [| exact Hs]. rewrite Er.
        pose proof (valid_number (rs, c) q (or_introl eq_refl) Hq). lia.
    + destruct Hsay as (Hnum & Hact). apply Hc in Hi as [Hpl Hsub]. destruct Hn as [Hn | [Hn _]]; [| congruence]. rewrite Hnum in Hn. injection Hn as Hn.
      destruct Hpl as [-> | Hpl]; [| exfalso; exact (not_command p Hpl Hn)]. cbn [fst snd] in *. right. split; [exact Hsub |]. split; [| congruence]. split; [| exact Hs].
      unfold taken in *. cbn [map sum fold_right] in *. pose proof (consumed_pos c). lia.
  - intros [(q & Hq & Hu & [Ho _] & ->) | (Hsub & [Ho _] & ->)].
    + assert (Hi : In (ItemPositional (rs, c) q) items) by (apply Hp; auto). pose proof (valid_number (rs, c) q (or_introl eq_refl) Hq) as V.
      destruct (f2_l _ _ _ _ F Hi) as (z & Hz & Hsz). destruct z as [|a]; cbn [says] in Hsz; [destruct Hsz |]. destruct Hsz as (Hnum & _ & Hact). cbn [fst] in Hnum.
      exists a. split; [| exact Hact]. split; [exact Hz |]. destruct (p_repeatable q) eqn:Er.
      * right. split; [exact Hnum |]. intros b Hbi Eb. destruct (f2_r _ _ _ _ F Hbi) as (i & Hi' & Hsay). destruct i as [owner o x | p q' | p]; cbn [says] in Hsay; [destruct Hsay | |].
        -- destruct Hsay as (Hnb & _). rewrite Eb in Hnb. destruct (p_repeatable q') eqn:Er'; [discriminate |]. injection Hnb as Hnb.
           apply Hp in Hi' as [[[-> | Hpl] Hq'] _]; [| symmetry in Hnb; exact (not_number p q' Hpl Hq' Hnb)]. cbn [fst snd] in *.
           pose proof (valid_number (rs, c) q' (or_introl eq_refl) Hq').
           destruct (ord_last _ _ Hord q q' Hq Hq' Er) as [-> | L]; [congruence | lia].
        -- destruct Hsay as (Hnb & _). rewrite Eb in Hnb. injection Hnb as Hnb. apply Hc in Hi' as [[-> | Hpl] Hsub].
           ++ cbn [snd] in Hsub. rewrite (ord_subs _ _ Hord q Hq Er) in Hsub. now apply Hsub.
           ++ symmetry in Hnb. exact (not_command p Hpl Hnb).
      * left. rewrite Hnum. f_equal. lia.
    + assert (Hi : In (ItemCommands (rs, c)) items) by (apply Hc; auto).
      destruct (f2_l _ _ _ _ F Hi) as (z & Hz & Hsz). destruct z as [|a]; cbn [says] in Hsz; [destruct Hsz |]. destruct Hsz as (Hnum & Hact). cbn [fst snd] in Hnum.
      exists a. split; [| exact Hact]. split; [exact Hz |]. left. rewrite Hnum. f_equal. lia.
Qed.
End Completes.
