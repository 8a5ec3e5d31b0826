(** * Proofs: the command line as fish reads it, and as Bash reads it. *)
From Verif Require Import Base Value Dict StrUtils Shell SpecShell When SpecWhen WhenProofs Cli CliExamples CliProofs CliMore SpecCli BashUtils BashParser SpecParser ParserPaths ParserProofs ParserCheck
  PropertiesParser SpecOffered BashOffers SpecBash BashStrings BashArguments BashPositionals BashFunctions BashDashes BashMeaning BashWhole SpecQuery SpecAcross.
Open Scope list_scope.

(** The values of variables, in order. *)
Definition appends (es : list event) : list (str * str) :=
  flat_map (fun e => match e with Append v x => [(v, x)] | _ => [] end) es.
Lemma appends_app a b : appends (a ++ b) = appends a ++ appends b.
Proof. apply flat_map_app. Qed.
Lemma positionals_app a b : positionals_in (a ++ b) = positionals_in a ++ positionals_in b.
Proof. apply flat_map_app. Qed.

(** An option and what is stored for it. *)
Definition on_path (here p : place) : Prop := p = here \/ In p (ancestors (fst here)).
Definition meant (here : place) (g a : str * str) : Prop :=
  exists p o, on_path here p /\ In o (c_options (snd p)) /\ In (fst g) (o_strings o) /\ opt_variable o = Ok (fst a) /\
    (arg_kind o = ArgRequired -> snd a = snd g).

Lemma ancestors_trans p q r : In p (ancestors (fst q)) -> In q (ancestors r) -> In p (ancestors r).
Proof.
  intros Hp. induction r as [| c r IH]; [easy |]. cbn [ancestors]. intros [<- | Hq]; right; [exact Hp | now apply IH].
Qed.
Lemma on_path_trans p q r : on_path q p -> on_path r q -> on_path r p.
Proof.
  intros [-> | Hp] [-> | Hq]; [now left | now right | now right |]. right. now apply (ancestors_trans p q).
Qed.
Lemma meant_path here there g a : meant here g a -> on_path there here -> meant there g a.
Proof. intros (p & o & Hp & H) Ht. exists p, o. split; [now apply (on_path_trans p here) | exact H]. Qed.
Lemma meant_all here there l l' : Forall2 (meant here) l l' -> on_path there here -> Forall2 (meant there) l l'.
Proof. intros H Ht. induction H; constructor; [now apply (meant_path here) | assumption]. Qed.
Lemma scope_path here p : in_scope here p -> on_path here p.
Proof. intros [-> | [H _]]; [now left | now right]. Qed.
Lemma located_ancestor root ps c p : located root ps c -> In p (ancestors ps) -> located root (fst p) (snd p).
Proof.
  intros H. revert p. induction H as [| ps c sub H IH Hs]; intros p Hp; [destruct Hp |]. cbn [ancestors] in Hp. destruct Hp as [<- | Hp]; [exact H | now apply IH].
Qed.
Lemma on_path_located root ps c p : located root ps c -> on_path (ps, c) p -> located root (fst p) (snd p).
Proof. intros H [-> | Hp]; [exact H | now apply (located_ancestor root ps c)]. Qed.

Section Read.
Variable root : cmd.
Variable usable : place -> nat -> place -> Prop.
Hypothesis usable_scope : forall here n p, usable here n p -> in_scope here p.
Hypothesis variables : forall ps c o, located root ps c -> In o (c_options c) -> exists v, opt_variable o = Ok v.

Lemma knows_known here n x o : knows usable here n x o -> known here x o.
Proof. intros (p & Hp & Ho & Hx). exists p. split; [now apply (usable_scope here n) | split; [exact Ho | now left]]. Qed.
Lemma knows_variable here n x o : located root (fst here) (snd here) -> knows usable here n x o -> exists v, opt_variable o = Ok v.
Proof.
  intros Hl (p & Hp & Ho & _). apply usable_scope, scope_path in Hp. destruct here as [ps c].
  apply (on_path_located root ps c p Hl) in Hp. now apply (variables (fst p) (snd p)).
Qed.
Lemma knows_meant here n x o v a b : knows usable here n x o -> opt_variable o = Ok v -> (arg_kind o = ArgRequired -> b = a) -> meant here (x, a) (v, b).
Proof.
  intros (p & Hp & Ho & Hx) Hv Ha. exists p, o. split; [now apply scope_path, (usable_scope here n) |]. auto.
Qed.

Lemma together_cluster here n cs given w : located root (fst here) (snd here) -> together usable here n cs given w ->
  exists es w', cluster here cs es w' /\ Forall2 (meant here) given (appends es) /\ positionals_in es = [] /\
    match w with
    | None => w' = None
    | Some x => exists o v, knows usable here n x o /\ arg_kind o = ArgRequired /\ opt_variable o = Ok v /\ w' = Some v
    end.
Proof.
  intros Hl H. induction H as [| c o cs given w Hk Ha H IH | c o t Hk Ha Ht | c o t Hk Ha Hn Ht | c o Hk Ha].
  - exists [], None. split; [constructor |]. split; [constructor |]. split; reflexivity.
  - destruct IH as (es & w' & Hc & Hm & Hp & Hw). destruct (knows_variable here n _ o Hl Hk) as (v & Hv).
    exists (Append v OPT_ISSET :: es), w'. split; [now apply (cl_flag here c o); [apply (knows_known here n) | | |] |].
    split; [| split; assumption]. cbn [appends flat_map app]. constructor; [| exact Hm].
    apply (knows_meant here n _ o); [assumption | assumption | congruence].
  - destruct (knows_variable here n _ o Hl Hk) as (v & Hv). destruct t as [| t0 t].
    + exists [Append v OPT_ISSET], None. split; [now apply (cl_alone here c o); [apply (knows_known here n) | |] |].
      split; [| split; reflexivity]. constructor; [| constructor]. apply (knows_meant here n _ o); [assumption | assumption | congruence].
    + exists [Append v (t0 :: t)], None. split; [apply (cl_attached here c o); [now apply (knows_known here n) | congruence | assumption | discriminate | assumption] |].
      split; [| split; reflexivity]. constructor; [| constructor]. now apply (knows_meant here n _ o).
  - destruct (knows_variable here n _ o Hl Hk) as (v & Hv).
    exists [Append v t], None. split; [apply (cl_attached here c o); [now apply (knows_known here n) | congruence | assumption | assumption | assumption] |].
    split; [| split; reflexivity]. constructor; [| constructor]. now apply (knows_meant here n _ o).
  - destruct (knows_variable here n _ o Hl Hk) as (v & Hv). exists [], (Some v).
    split; [now apply (cl_waiting here c o); [apply (knows_known here n) | |] |]. split; [constructor |]. split; [reflexivity |]. exists o, v. auto.
Qed.

Lemma no_option_word here w ws : located root (fst here) (snd here) -> unabbreviated root ws -> In w ws -> no_option here w -> no_word here w.
Proof.
  intros Hl Hu Hw Hn x o Hk Hx. destruct here as [ps c]. cbn [fst snd] in Hl.
  destruct Hk as (p & Hp & Hs).
  assert (K : w = x \/ is_prefix (x ++ [EQ]) w -> False).
  { intros K. assert (Hin : In x (o_strings o)) by (apply (Hu w ps c x o Hw Hl); [exists p; split; assumption | assumption | assumption]).
    destruct (Hn p x o (scope_path _ _ Hp) (proj1 Hs) Hin Hx) as [K1 K2]. destruct K; auto. }
  split; intros E; apply K; [now left | now right].
Qed.
Lemma unabbreviated_tl w ws : unabbreviated root (w :: ws) -> unabbreviated root ws.
Proof. intros H v rs c x o Hv. apply (H v rs c x o). now right. Qed.

Lemma positionals_map ws : positionals_in (map Positional ws) = ws.
Proof. unfold positionals_in. induction ws as [| w ws IH]; [reflexivity |]. cbn. now rewrite IH. Qed.
Lemma appends_map ws : appends (map Positional ws) = [].
Proof. unfold appends. induction ws as [| w ws IH]; [reflexivity |]. exact IH. Qed.
Lemma selected_more P Q ps c : selected P ps c -> selected (P ++ Q) ps c.
Proof.
  revert c. induction ps as [| p ps IH]; intros c; cbn [selected]; [easy |]. intros (H & w & (Hn & Hw) & Hs). split; [now apply IH |].
  exists w. split; [split; [exact Hn |] | exact Hs]. rewrite nth_error_app1; [exact Hw |]. apply nth_error_Some. congruence.
Qed.
Lemma consumed_pos c : (0 < consumed c)%Z.
Proof. unfold consumed. induction (map p_number (c_positionals c)) as [| z l IH]; cbn [fold_right]; lia. Qed.

Lemma taken_cons c ps : taken (c :: ps) = (consumed c + taken ps)%Z.
Proof. reflexivity. Qed.

(** How far the words lead: the command, and the number of positional arguments behind its name. *)
Definition leads (here : place) (P : list str) (end_ : place) (n : nat) : Prop :=
  located root (fst end_) (snd end_) /\ on_path end_ here /\ selected P (fst end_) (snd end_) /\
  Z.of_nat (List.length P) = (taken (fst end_) + Z.of_nat n)%Z /\
  (c_subcommands (snd end_) = None \/ (Z.of_nat n < consumed (snd end_))%Z).

Theorem typed_usage here n ws ps given w : typed usable here n ws ps given w ->
  located root (fst here) (snd here) -> unabbreviated root ws -> ~ In (s "--") ws ->
  c_subcommands (snd here) = None \/ (Z.of_nat n < consumed (snd here))%Z ->
  forall pre, Z.of_nat (List.length pre) = (taken (fst here) + Z.of_nat n)%Z -> selected pre (fst here) (snd here) ->
  exists es e end_ m, usage here n ws es e /\ positionals_in es = ps /\
    match e with Waiting _ => w = true | Normal => w = false | BehindDashes => False end /\
    leads here (pre ++ ps) end_ m /\ Forall2 (meant end_) given (appends es).
Proof.
  intros H. induction H as [here n | here n ws | here n x o ws ps given e Hk Hx Ha H IH | here n x o t ws ps given e Hk Hx Ha H IH
    | here n x o t ws ps given e Hk Hx Ha H IH | here n x o Hk Hx Ha | here n cs given0 ws ps given e Hc Ht Hn H IH
    | here n cs given0 x t ws ps given e Ht Hn H IH | here n cs given0 x Ht Hn
    | rs c n w ws ps given e Hw Hs H IH | rs c n sub w ws ps given e Hw Hs Hin Hnm H IH]; intros Hl Hu Hd Hm pre Hlen Hsel.
  - exists [], Normal, here, n. split; [constructor |]. split; [reflexivity |]. split; [reflexivity |]. split; [| constructor].
    split; [exact Hl |]. split; [now left |]. rewrite app_nil_r. auto.
  - elim Hd. now left.
  - destruct (IH Hl (unabbreviated_tl _ _ Hu) (fun K => Hd (or_intror K)) Hm pre Hlen Hsel) as (es & e' & en & m & H1 & H2 & H3 & H4 & H5).
    destruct (knows_variable here n _ o Hl Hk) as (v & Hv). exists (Append v OPT_ISSET :: es), e', en, m.
    split; [apply (us_flag here n x o); [now apply (knows_known here n) | assumption | assumption | assumption | assumption] |].
    split; [exact H2 |]. split; [exact H3 |]. split; [exact H4 |]. cbn [appends flat_map app]. constructor; [| exact H5].
    apply (meant_path here); [| apply H4]. apply (knows_meant here n x o); [assumption | assumption | congruence].
  - destruct (IH Hl (unabbreviated_tl _ _ Hu) (fun K => Hd (or_intror K)) Hm pre Hlen Hsel) as (es & e' & en & m & H1 & H2 & H3 & H4 & H5).
    destruct (knows_variable here n _ o Hl Hk) as (v & Hv). exists (Append v t :: es), e', en, m.
    split; [apply (us_attached here n x o); [now apply (knows_known here n) | assumption | assumption | assumption | assumption] |].
    split; [exact H2 |]. split; [exact H3 |]. split; [exact H4 |]. cbn [appends flat_map app]. constructor; [| exact H5].
    apply (meant_path here); [| apply H4]. now apply (knows_meant here n x o).
  - destruct (IH Hl (unabbreviated_tl _ _ (unabbreviated_tl _ _ Hu)) (fun K => Hd (or_intror (or_intror K))) Hm pre Hlen Hsel) as (es & e' & en & m & H1 & H2 & H3 & H4 & H5).
    destruct (knows_variable here n _ o Hl Hk) as (v & Hv). exists (Append v t :: es), e', en, m.
    split; [apply (us_separate here n x o); [now apply (knows_known here n) | assumption | assumption | assumption | assumption] |].
    split; [exact H2 |]. split; [exact H3 |]. split; [exact H4 |]. cbn [appends flat_map app]. constructor; [| exact H5].
    apply (meant_path here); [| apply H4]. now apply (knows_meant here n x o).
  - destruct (knows_variable here n _ o Hl Hk) as (v & Hv). exists [], (Waiting v), here, n.
    split; [apply (us_waiting here n x o); [now apply (knows_known here n) | assumption | assumption | assumption] |].
    split; [reflexivity |]. split; [reflexivity |]. split; [| constructor]. split; [exact Hl |]. split; [now left |]. rewrite app_nil_r. auto.
  - destruct (IH Hl (unabbreviated_tl _ _ Hu) (fun K => Hd (or_intror K)) Hm pre Hlen Hsel) as (es & e' & en & m & H1 & H2 & H3 & H4 & H5).
    destruct (together_cluster here n cs given0 None Hl Ht) as (es0 & w' & C1 & C2 & C3 & ->). exists (es0 ++ es), e', en, m.
    split; [apply us_cluster; [assumption | assumption | apply (no_option_word here _ ((DASH :: cs) :: ws)); auto; now left | assumption] |].
    split; [now rewrite positionals_app, C3 |]. split; [exact H3 |]. split; [exact H4 |]. rewrite appends_app. apply Forall2_app; [| exact H5].
    apply (meant_all here); [exact C2 | apply H4].
  - destruct (IH Hl (unabbreviated_tl _ _ (unabbreviated_tl _ _ Hu)) (fun K => Hd (or_intror (or_intror K))) Hm pre Hlen Hsel) as (es & e' & en & m & H1 & H2 & H3 & H4 & H5).
    destruct (together_cluster here n cs given0 (Some x) Hl Ht) as (es0 & w' & C1 & C2 & C3 & (o & v & Hk & Ha & Hv & ->)). exists (es0 ++ Append v t :: es), e', en, m.
    split; [apply us_cluster_separate; [assumption | apply (no_option_word here _ ((DASH :: cs) :: t :: ws)); auto; now left | assumption] |].
    split; [now rewrite positionals_app, C3 |]. split; [exact H3 |]. split; [exact H4 |]. rewrite appends_app. apply Forall2_app.
    + apply (meant_all here); [exact C2 | apply H4].
    + cbn [appends flat_map app]. constructor; [| exact H5]. apply (meant_path here); [| apply H4]. now apply (knows_meant here n x o).
  - destruct (together_cluster here n cs given0 (Some x) Hl Ht) as (es0 & w' & C1 & C2 & C3 & (o & v & Hk & Ha & Hv & ->)). exists es0, (Waiting v), here, n.
    split; [apply us_cluster_waiting; [assumption | apply (no_option_word here _ [DASH :: cs]); auto; now left] |].
    split; [exact C3 |]. split; [reflexivity |]. split; [| exact C2]. split; [exact Hl |]. split; [now left |]. rewrite app_nil_r. auto.
  - cbn [fst snd] in *. destruct (IH Hl (unabbreviated_tl _ _ Hu) (fun K => Hd (or_intror K))) with (pre := pre ++ [w]) as (es & e' & en & m & H1 & H2 & H3 & H4 & H5).
    + destruct Hm as [Hm | Hm]; [now left |]. destruct Hs as [Hs | Hs]; [now left | right; lia].
    + rewrite app_length. cbn [List.length]. lia.
    + now apply selected_more.
    + exists (Positional w :: es), e', en, m. split; [now apply us_word |]. split; [change (w :: positionals_in es = w :: ps); now rewrite H2 |]. split; [exact H3 |].
      split; [now rewrite <- app_assoc in H4 | exact H5].
  - cbn [fst snd] in *. destruct (IH (located_sub root rs c sub Hl Hin) (unabbreviated_tl _ _ Hu) (fun K => Hd (or_intror K))) with (pre := pre ++ [w]) as (es & e' & en & m & H1 & H2 & H3 & H4 & H5).
    + right. apply consumed_pos.
    + rewrite app_length, taken_cons. cbn [List.length]. lia.
    + split; [now apply selected_more |]. exists w. split; [| exact Hnm]. pose proof (consumed_pos c) as Hc. split.
      * rewrite taken_cons. lia.
      * rewrite taken_cons, nth_error_app2 by lia. replace (Z.to_nat (consumed c + taken rs - 1) - List.length pre) with 0 by lia. reflexivity.
    + exists (Positional w :: es), e', en, m. split; [now apply (us_command rs c n sub) |]. split; [change (w :: positionals_in es = w :: ps); now rewrite H2 |]. split; [exact H3 |].
      split; [| exact H5]. rewrite <- app_assoc in H4. destruct H4 as (G1 & G2 & G3). split; [exact G1 |]. split; [| exact G3].
      apply (on_path_trans _ (c :: rs, sub)); [right; now left | exact G2].
Qed.
End Read.

(** ** The command that is completed *)

Lemma selected_path P rs c p : selected P rs c -> on_path (rs, c) p -> selected P (fst p) (snd p).
Proof.
  intros H [-> | Hp]; [exact H |]. cbn [fst] in Hp. revert c H. induction rs as [| d rs IH]; intros c H; [destruct Hp |].
  destruct H as [H _]. cbn [ancestors] in Hp. destruct Hp as [<- | Hp]; [exact H | now apply (IH Hp d)].
Qed.
Lemma next_on_path root rs c p : located root rs c -> In p (ancestors rs) -> exists d, In d (subs (snd p)) /\ on_path (rs, c) (snd p :: fst p, d).
Proof.
  intros H. induction H as [| rs c sub H IH Hs]; [easy |]. cbn [ancestors]. intros [<- | Hp].
  - exists sub. split; [exact Hs | now left].
  - destruct (IH Hp) as (d & Hd & Hq). exists d. split; [exact Hd |]. apply (on_path_trans _ (rs, c)); [exact Hq |]. right. now left.
Qed.
Lemma root_on_path root rs c : located root rs c -> on_path (rs, c) ([], root).
Proof. intros H. induction H as [| rs c sub H IH Hs]; [now left |]. apply (on_path_trans _ (rs, c)); [exact IH | right; now left]. Qed.

Definition deepest (P : list str) (ps : list cmd) (c : cmd) : Prop :=
  forall w sub, nth_positional P (taken (c :: ps)) w -> In sub (subs c) -> ~ names c sub w.

Section Place.
Variable root : cmd.
Hypothesis unique : forall rs c d1 d2 x, located root rs c -> In d1 (subs c) -> In d2 (subs c) -> names c d1 x -> names c d2 x -> d1 = d2.
Variable P : list str.

Lemma below ps c rs d : located root ps c -> selected P ps c -> deepest P ps c -> located root rs d -> selected P rs d -> on_path (ps, c) (rs, d).
Proof.
  intros Hl Hs Hd Hl'. induction Hl' as [| rs d sub Hl' IH Hin]; intros Hs'; [now apply root_on_path |].
  destruct Hs' as (Hs' & w & Hw & Hn). destruct (IH Hs') as [E | Hp].
  - apply pair_inj in E as [-> ->]. elim (Hd w sub Hw Hin Hn).
  - destruct (next_on_path root ps c (rs, d) Hl Hp) as (e & He & Hq). cbn [fst snd] in *.
    apply (selected_path P ps c) in Hq as Hsel; [| exact Hs]. cbn [fst snd selected] in Hsel. destruct Hsel as (_ & w' & Hw' & Hn').
    assert (E : w' = w) by (destruct Hw as [_ Hw], Hw' as [_ Hw']; congruence). subst w'.
    assert (E : e = sub) by (eapply unique; eauto). now subst e.
Qed.
Lemma ancestors_shorter p rs : In p (ancestors rs) -> List.length (fst p) < List.length rs.
Proof. induction rs as [| d rs IH]; [easy |]. cbn [ancestors List.length]. intros [<- | H]; [cbn; lia | specialize (IH H); lia]. Qed.
Lemma place_unique ps c rs d : located root ps c -> selected P ps c -> deepest P ps c -> located root rs d -> selected P rs d -> deepest P rs d ->
  (rs, d) = (ps, c).
Proof.
  intros H1 H2 H3 H4 H5 H6. destruct (below ps c rs d H1 H2 H3 H4 H5) as [E | Hp]; [exact E |].
  destruct (below rs d ps c H4 H5 H6 H1 H2) as [E | Hq]; [now rewrite E |].
  apply ancestors_shorter in Hp, Hq. cbn [fst] in *. lia.
Qed.
Lemma leads_deepest here end_ n : leads root here P end_ n -> deepest P (fst end_) (snd end_).
Proof.
  intros (Hl & _ & _ & Hlen & Hn) w sub (_ & Hw) Hin _. destruct Hn as [Hn | Hn].
  - unfold subs in Hin. now rewrite Hn in Hin.
  - assert (K : Z.to_nat (taken (snd end_ :: fst end_) - 1) < List.length P) by (apply nth_error_Some; congruence). rewrite taken_cons in K. lia.
Qed.
End Place.

(** ** Values *)

Lemma path_in here p : on_path here p -> In (snd p) (snd here :: fst here).
Proof.
  intros [-> | H]; [now left |]. right. destruct here as [rs c]. cbn [fst] in *. clear -H. induction rs as [| d rs IH]; [destruct H |].
  cbn [ancestors] in H. destruct H as [<- | H]; [now left | right; now apply IH].
Qed.
Lemma values_appends es v : values_for es v = map snd (filter (fun a => str_eqb (fst a) v) (appends es)).
Proof.
  unfold values_for, appends. induction es as [| [w x | w |] l IH]; cbn [flat_map app]; try exact IH; [reflexivity |].
  cbn [filter fst]. destruct (str_eqb w v); cbn [map snd app]; now rewrite IH.
Qed.
Lemma path_of here d : In d (snd here :: fst here) -> exists p, on_path here p /\ snd p = d.
Proof.
  intros [<- | H]; [exists here; split; [now left | reflexivity] |]. destruct here as [rs c]. cbn [fst] in H.
  assert (K : exists p, In p (ancestors rs) /\ snd p = d).
  { clear -H. induction rs as [| e rs IH]; [destruct H |]. destruct H as [<- | H]; [exists (rs, e); split; [now left | reflexivity] |].
    destruct (IH H) as (p & Hp & E). exists p. split; [now right | exact E]. }
  destruct K as (p & Hp & E). exists p. split; [now right | exact E].
Qed.

Section Values.
Variables (here : place) (G : list (str * str)) (es : list event).
Hypothesis Hmeant : Forall2 (meant here) G (appends es).
Hypothesis Happart : apart here.
Hypothesis Hkinds : forall p1 p2 o1 o2 x, on_path here p1 -> on_path here p2 -> In o1 (c_options (snd p1)) -> In x (o_strings o1) ->
  In o2 (c_options (snd p2)) -> In x (o_strings o2) -> arg_kind o1 = arg_kind o2.

Definition typed_for (o : opt) : list (str * str) := filter (fun g => mems (fst g) (o_strings o)) G.
Lemma values_typed d o v : In d (snd here :: fst here) -> In o (c_options d) -> opt_variable o = Ok v ->
  Forall2 (fun g x => arg_kind o = ArgRequired -> x = snd g) (typed_for o) (values_for es v).
Proof.
  intros Hd Ho Hv. rewrite values_appends. unfold typed_for. induction Hmeant as [| g a G' A' Hga H IH]; [constructor |]. specialize (IH H).
  destruct Hga as (p & q & Hp & Hq & Hx & Hqv & Hr). cbn [filter].
  assert (E : mems (fst g) (o_strings o) = str_eqb (fst a) v).
  { apply eq_true_iff_eq. rewrite mems_In, str_eqb_eq. split.
    - intros K. destruct (Happart _ _ q o (path_in here p Hp) Hd Hq Ho (or_intror (ex_intro _ _ (conj Hx K)))) as [E _]. congruence.
    - intros K. destruct (Happart _ _ q o (path_in here p Hp) Hd Hq Ho) as [_ E]; [left; congruence | now apply E]. }
  rewrite E. destruct (str_eqb (fst a) v) eqn:Ev; [| exact IH]. cbn [map]. constructor; [| exact IH].
  intros Ha. apply Hr. apply mems_In in E. destruct (path_of here d Hd) as (p' & Hp' & <-).
  rewrite <- Ha. now apply (Hkinds p p' q o (fst g)).
Qed.
Lemma Forall2_nil {A B} (R : A -> B -> Prop) l l' : Forall2 R l l' -> (l = [] <-> l' = []).
Proof. intros H. destruct H; split; intros; try reflexivity; discriminate. Qed.
Lemma silent_values d o v : In d (snd here :: fst here) -> In o (c_options d) -> opt_variable o = Ok v ->
  (silent G (o_strings o) <-> values_for es v = []).
Proof.
  intros Hd Ho Hv. rewrite <- (Forall2_nil _ _ _ (values_typed d o v Hd Ho Hv)). unfold typed_for. split.
  - intros H. destruct (filter _ G) as [| g l] eqn:E; [reflexivity |]. exfalso. assert (K : In g (g :: l)) by now left. rewrite <- E in K. apply filter_In in K as [K1 K2].
    apply mems_In in K2. apply (H (fst g) K2). exists (snd g). now rewrite <- surjective_pairing.
  - intros H x Hx (u & Hu). assert (K : In (x, u) (filter (fun g => mems (fst g) (o_strings o)) G)) by (apply filter_In; split; [exact Hu | now apply mems_In]).
    now rewrite H in K.
Qed.
Lemma required_values d o v : In d (snd here :: fst here) -> In o (c_options d) -> opt_variable o = Ok v -> arg_kind o = ArgRequired ->
  values_for es v = map snd (typed_for o).
Proof.
  intros Hd Ho Hv Ha. induction (values_typed d o v Hd Ho Hv) as [| g x l l' E H IH]; [reflexivity |]. cbn [map]. now rewrite IH, (E Ha).
Qed.

(** ** Conditions *)

Lemma filter_last {A} (f : A -> bool) l : forall before g, filter f l = before ++ [g] <->
  exists b a, l = b ++ g :: a /\ f g = true /\ filter f a = [] /\ before = filter f b.
Proof.
  induction l as [| h l IH]; intros before g; cbn [filter].
  - split; [intros E; destruct before; discriminate E | intros (b & a & E & _); destruct b; discriminate E].
  - destruct (f h) eqn:Eh.
    + destruct before as [| h' before]; cbn [app].
      * split.
        -- intros E. injection E as -> E. exists [], l. auto.
        -- intros (b & a & E & Hg & Ha & Hb). destruct b as [| h' b]; cbn [app] in E; injection E as -> ->; [now rewrite Ha |].
           cbn [filter] in Hb. rewrite Eh in Hb. discriminate Hb.
      * split.
        -- intros E. injection E as -> E. apply IH in E as (b & a & -> & Hg & Ha & ->). exists (h' :: b), a. cbn [app filter]. rewrite Eh. auto.
        -- intros (b & a & E & Hg & Ha & Hb). destruct b as [| h2 b]; cbn [app] in E; injection E as -> ->; [discriminate Hb |].
           cbn [filter] in Hb. rewrite Eh in Hb. injection Hb as -> ->. f_equal. apply IH. exists b, a. auto.
    + rewrite IH. split.
      * intros (b & a & -> & Hg & Ha & ->). exists (h :: b), a. cbn [app filter]. rewrite Eh. auto.
      * intros (b & a & E & Hg & Ha & Hb). destruct b as [| h2 b]; cbn [app] in E; injection E as -> ->; [congruence |].
        cbn [filter] in Hb. rewrite Eh in Hb. exists b, a. auto.
Qed.
Variable matches : str -> bool -> str -> bool.
Variable P : list str.
Variable c : cmd.
Hypothesis Hon : In c (snd here :: fst here).
Hypothesis Hvariables : forall o, In o (c_options c) -> exists v, opt_variable o = Ok v.

Lemma given_required o : In o (c_options c) -> arg_kind o = ArgRequired -> given_values es o = map snd (typed_for o).
Proof.
  intros Ho Ha. unfold given_values. destruct (Hvariables o Ho) as (v & Hv). rewrite Hv. now apply (required_values c).
Qed.
Lemma given_silent o : In o (c_options c) -> (given_values es o = [] <-> silent G (o_strings o)).
Proof.
  intros Ho. unfold given_values. destruct (Hvariables o Ho) as (v & Hv). rewrite Hv. symmetry. now apply (silent_values c).
Qed.

Lemma value_agrees os any v : about_values c os any -> (forall x, In x os -> exists o, In o (c_options c) /\ In x (o_strings o)) ->
  (exists o, one_of c os o /\ value_for (given_values es) any o v) <-> value_of G any os v.
Proof.
  intros (Hc & Ha & Hany) Hn. unfold value_for, value_of. split.
  - intros (o & Ho & before & after & E & K). rewrite (given_required o (proj1 Ho) (Ha o Ho)) in E.
    destruct any.
    + assert (Hin : In v (map snd (typed_for o))) by (rewrite E; apply in_or_app; right; now left).
      apply in_map_iff in Hin as ((x & u) & <- & Hin). apply filter_In in Hin as [Hin Hx]. apply mems_In in Hx. cbn [fst snd] in *.
      apply in_split in Hin as (b & a & ->). exists b, x, a. split; [reflexivity |]. split; [now apply (Hc o) | now left].
    + destruct K as [K | ->]; [discriminate K |]. destruct Hany as [Hany | Hone]; [discriminate Hany |].
      apply map_eq_app in E as (l1 & l2 & E & <- & E2). destruct l2 as [| [x u] [| ? ?]]; try discriminate E2. injection E2 as <-.
      unfold typed_for in E. apply filter_last in E as (b & a & -> & Hg & Hf & _). cbn [fst] in Hg. apply mems_In in Hg.
      exists b, x, a. split; [reflexivity |]. split; [now apply (Hc o) |]. right. intros y w Hy Hos.
      assert (Hin : In (y, w) (filter (fun g => mems (fst g) (o_strings o)) a)); [| now rewrite Hf in Hin].
      apply filter_In. split; [exact Hy |]. apply mems_In. cbn [fst]. destruct (Hn y Hos) as (o' & Ho' & Hy').
      rewrite (Hone o o' Ho); [exact Hy' |]. split; [exact Ho' | exists y; auto].
  - intros (b & x & a & E & Hx & K). destruct (Hn x Hx) as (o & Ho & Hxo).
    assert (Hone : one_of c os o) by (split; [exact Ho | exists x; auto]). exists o. split; [exact Hone |].
    rewrite (given_required o Ho (Ha o Hone)).
    destruct any.
    + assert (Hin : In v (map snd (typed_for o))).
      { apply in_map_iff. exists (x, v). split; [reflexivity |]. apply filter_In. split; [rewrite E; apply in_or_app; right; now left | now apply mems_In]. }
      apply in_split in Hin as (l1 & l2 & ->). exists l1, l2. split; [reflexivity | now left].
    + destruct K as [K | K]; [discriminate K |]. exists (map snd (filter (fun g => mems (fst g) (o_strings o)) b)), []. split; [| now right].
      assert (F : typed_for o = filter (fun g => mems (fst g) (o_strings o)) b ++ [(x, v)]); [| rewrite F, map_app; reflexivity].
      unfold typed_for. apply filter_last. exists b, a. split; [exact E |]. split; [now apply mems_In |]. split; [| reflexivity].
      destruct (filter _ a) as [| [y u] l] eqn:Ef; [reflexivity |]. exfalso. assert (Hin : In (y, u) ((y, u) :: l)) by now left. rewrite <- Ef in Hin.
      apply filter_In in Hin as [Hin Hy]. apply mems_In in Hy. cbn [fst] in Hy. apply (K y u Hin). now apply (Hc o).
Qed.
Lemma lower_nil x : lower x = [] -> x = [].
Proof. destruct x; [reflexivity | discriminate]. Qed.

Lemma test_agrees t : agreeing_test c t -> (forall x, In x (test_options t) -> exists o, In o (c_options c) /\ In x (o_strings o)) ->
  (test_true matches (given_values es) P c t <-> test_holds matches P G t).
Proof.
  destruct t as [os ws ic any | os r ic any | os | op n | ic n ws]; cbn [agreeing_test test_options test_true test_holds]; intros Ha Hn.
  - pose proof (fun v => value_agrees os any v Ha Hn) as K. split.
    + intros (o & v & w & Ho & Hv & H). exists v, w. split; [apply K; exists o; auto | exact H].
    + intros (v & w & Hv & H). apply K in Hv as (o & Ho & Hv). exists o, v, w. auto.
  - pose proof (fun v => value_agrees os any v Ha Hn) as K. split.
    + intros (o & v & Ho & Hv & H). exists v. split; [apply K; exists o; auto | exact H].
    + intros (v & Hv & H). apply K in Hv as (o & Ho & Hv). exists o, v. auto.
  - split.
    + intros (o & Ho & Hv). rewrite (given_silent o (proj1 Ho)) in Hv.
      destruct (existsb (fun g => mems (fst g) (o_strings o)) G) eqn:E.
      * apply existsb_exists in E as ((x & v) & Hin & Hx). apply mems_In in Hx. cbn [fst] in Hx. exists x. split; [now apply (Ha o) | now exists v].
      * elim Hv. intros x Hx (v & Hin). assert (K : existsb (fun g => mems (fst g) (o_strings o)) G = true); [| congruence].
        apply existsb_exists. exists (x, v). split; [exact Hin | now apply mems_In].
    + intros (x & Hx & Hg). destruct (Hn x Hx) as (o & Ho & Hxo). exists o. split; [split; [exact Ho | exists x; auto] |].
      rewrite (given_silent o Ho). intros K. now apply (K x Hxo).
  - reflexivity.
  - destruct Ha as [Ha He]. unfold element. destruct (Z.ltb_spec (n - 1) 0) as [K | _]; [lia |]. cbn beta iota zeta.
    destruct (Z.ltb_spec (n - 1) 0) as [K | _]; [lia |]. unfold nth_positional. split.
    + intros (w & Hw & Hs). exists (nth (Z.to_nat (n - 1)) P []), w. split; [| auto]. split; [exact Ha |].
      destruct (nth_error P (Z.to_nat (n - 1))) as [y |] eqn:E.
      * f_equal. symmetry. now apply nth_error_nth.
      * apply nth_error_None in E. rewrite nth_overflow in Hs by exact E. elim He. destruct ic; cbn [same] in Hs.
        -- symmetry in Hs. apply lower_nil in Hs. now subst.
        -- now subst.
    + intros (y & w & (_ & Hy) & Hw & Hs). exists w. split; [exact Hw |]. now rewrite (nth_error_nth _ _ _ Hy).
Qed.

Lemma cond_agrees :
  (forall t, (forall o, In (STest o) (term_syms t) -> agreeing_test c o /\ forall x, In x (test_options o) -> exists p, In p (c_options c) /\ In x (o_strings p)) ->
     (term_value matches (given_values es) P c t <-> term_holds matches P G t)) /\
  (forall l, (forall o, In (STest o) (conds_syms l) -> agreeing_test c o /\ forall x, In x (test_options o) -> exists p, In p (c_options c) /\ In x (o_strings p)) ->
     (cond_value matches (given_values es) P c l <-> cond_holds matches P G l)).
Proof.
  apply term_conds_ind; cbn [term_syms conds_syms term_value cond_value term_holds cond_holds].
  - intros o H. apply test_agrees; apply (H o); now left.
  - intros t IH H. rewrite IH; [reflexivity |]. intros o Ho. apply H. now right.
  - intros l IH H. apply IH. intros o Ho. apply H. right. apply in_or_app. now left.
  - intros t IH H. now apply IH.
  - intros l IHl t IHt H. rewrite IHl, IHt; [reflexivity | |]; intros o Ho; apply H; apply in_or_app; [right; right | left]; assumption.
  - intros l IHl t IHt H. rewrite IHl, IHt; [reflexivity | |]; intros o Ho; apply H; apply in_or_app; [right; right | left]; assumption.
Qed.
End Values.
