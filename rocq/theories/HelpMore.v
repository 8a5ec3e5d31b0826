(** * Proofs about help texts: exceptions, and the usual layout. *)
From Verif Require Import Base HelpParser SpecHelp HelpProofs.
Open Scope list_scope.

(** ** The loops end, and [IndexError] is the only exception *)
Definition only_index {A} (r : res A) : Prop := forall e, r = Err e -> e = IndexError.
Lemma only_ok {A} (a : A) : only_index (Ok a).
Proof. intros e H. discriminate. Qed.
Lemma delimiter_only x : only_index (parse_option_delimiter x).
Proof.
  intros e. unfold parse_option_delimiter. destruct (snd (eat_space x)) as [| c p]; [intros H; now injection H as <- |].
  destruct (memc _ _); discriminate.
Qed.
Lemma option_only x : only_index (parse_option_with_metavar x).
Proof.
  intros e. unfold parse_option_with_metavar. destruct (parse_option_string x) as [[opt r] |]; [| discriminate].
  destruct (str_eqb _ _); [destruct (parse_metavar r); discriminate |].
  destruct (peek_in _ _); [destruct (parse_metavar (tl r)); discriminate |].
  destruct (isspace _); [discriminate |]. pose proof (delimiter_only r) as D.
  destruct (parse_option_delimiter r) as [e' | [b q]]; [cbn [bind]; intros H; injection H as <-; now apply D |]. cbn [bind].
  destruct b; [discriminate |]. destruct (stream_is_space r); [destruct (parse_metavar (tl r)); discriminate | discriminate].
Qed.
Lemma option_shorter x o r : parse_option_with_metavar x = Ok (Some (o, r)) -> List.length r < List.length x.
Proof.
  intros H. apply option_spec in H as (t & -> & Ht). apply option_text_nonempty in Ht. rewrite app_length. destruct t; [congruence | cbn; lia].
Qed.
Lemma options_only fuel : forall acc x, List.length x <= fuel -> only_index (options_loop fuel acc x).
Proof.
  induction fuel as [| fuel IH]; intros acc x Hl; (destruct x as [| c x0]; [apply only_ok |]); [cbn in Hl; lia |].
  cbn [options_loop]. set (x := c :: x0) in *. pose proof (option_only x) as Ho. pose proof (option_shorter x) as Hs.
  destruct (parse_option_with_metavar x) as [e | [[o r] |]]; cbn [bind]; [intros e' H; injection H as <-; now apply Ho | | apply only_ok].
  specialize (Hs o r eq_refl). pose proof (delimiter_only r) as D. pose proof (delimiter_spec r) as Ds.
  destruct (parse_option_delimiter r) as [e | [b q]]; cbn [bind]; [intros e' H; injection H as <-; now apply D |].
  specialize (Ds b q eq_refl). destruct b; [| apply only_ok]. destruct Ds as (sp & d & -> & _). apply IH. rewrite !app_length in Hs. cbn in Hs, Hl. lia.
Qed.
Lemma trailing_only fuel : forall content x, List.length x < fuel -> exists d r, trailing_lines fuel content x = Ok (d, r).
Proof.
  induction fuel as [| fuel IH]; intros content x Hl; [lia |]. cbn [trailing_lines].
  destruct (parse_trailing_description_line x) as [[l q] |] eqn:E; [| eauto].
  apply trailing_line_spec in E as (sp & _ & _ & -> & _). destruct l as [| c l]; [eauto |]. apply IH. rewrite !app_length in Hl. cbn in Hl. lia.
Qed.
Lemma description_only x : exists d r, parse_description x = Ok (d, r).
Proof. unfold parse_description. destruct (eat_line _) as [l r]. apply trailing_only. lia. Qed.
Lemma item_only x : only_index (parse_options_with_description x).
Proof.
  intros e. unfold parse_options_with_description. pose proof (options_only (List.length x) [] x (le_n _)) as O.
  destruct (options_loop _ [] x) as [e' | [os r]]; cbn [bind]; [intros H; injection H as <-; now apply O |].
  destruct os; [discriminate |]. destruct (peek_in _ r); [| discriminate].
  destruct (description_only r) as (d & r' & ->). discriminate.
Qed.
Lemma eat_line_nonempty x l r : x <> [] -> eat_line x = (l, r) -> List.length r < List.length x.
Proof.
  intros Hn H. apply eat_line_spec in H as [-> [(u & -> & _) | [_ ->]]]; rewrite ?app_length; cbn; [lia |].
  rewrite app_nil_r in Hn. destruct l; [congruence | cbn; lia].
Qed.
Lemma parse_only x : only_index (parse x).
Proof.
  unfold parse. assert (H : forall fuel acc x, List.length x <= fuel -> only_index (parse_loop fuel acc x)); [| now apply H].
  clear x. induction fuel as [| fuel IH]; intros acc x Hl; (destruct x as [| c x0]; [apply only_ok |]); [cbn in Hl; lia |].
  cbn [parse_loop]. set (x := c :: x0) in *. pose proof (item_only x) as Ho. pose proof (item_spec x) as Hs.
  destruct (parse_options_with_description x) as [e | [[i r] |]]; cbn [bind]; [intros e' H; injection H as <-; now apply Ho | |].
  - destruct (Hs i r eq_refl) as (t & E & Hn & _). apply IH. rewrite E, app_length in Hl. destruct t; [congruence | cbn in Hl; lia].
  - destruct (eat_line x) as [l q] eqn:El. apply eat_line_nonempty in El; [| discriminate]. apply IH. lia.
Qed.

(** ** Complete texts *)
Definition closes (c : N) (v : str) : Prop :=
  c <> DQ /\ c <> SQ /\ forall d, closing c = Some d -> In d v.
Definition good (x : str) : Prop := (exists u, x = u ++ [LF]) /\ forall u c v, x = u ++ [c] ++ v -> closes c v.
Lemma complete_good x : complete_text x -> x <> [] -> good x.
Proof.
  intros ([-> | Hl] & Hd & Hs & H) Hn; [congruence |]. split; [exact Hl |]. intros u c v E.
  assert (Hc : In c x) by (rewrite E; apply in_app_iff; right; now left).
  split; [intros ->; now apply Hd |]. split; [intros ->; now apply Hs |].
  intros d Hcl. unfold closing in Hcl. destruct (H u v) as (H1 & H2 & H3 & H4).
  destruct (N.eqb_spec c LT); [subst; injection Hcl as <-; now apply H1 |].
  destruct (N.eqb_spec c LBRK); [subst; injection Hcl as <-; now apply H2 |].
  destruct (N.eqb_spec c LPAR); [subst; injection Hcl as <-; now apply H3 |].
  destruct (N.eqb_spec c LBRC); [subst; injection Hcl as <-; now apply H4 |].
  destruct (memc c [DQ; SQ]) eqn:E2; [| discriminate]. apply memc_In in E2. destruct E2 as [<- | [<- | []]]; [now destruct Hd | now destruct Hs].
Qed.
Lemma good_suffix t r : good (t ++ r) -> r <> [] -> good r.
Proof.
  intros [(u & E) H] Hn. split.
  - destruct (exists_last Hn) as (r' & c & ->). exists r'. rewrite app_assoc in E. apply app_inj_tail in E as [_ ->]. reflexivity.
  - intros u' c v ->. apply (H (t ++ u')). now rewrite <- app_assoc.
Qed.
Lemma good_tail c x : good (c :: x) -> c <> LF -> good x.
Proof.
  intros H Hc. apply (good_suffix [c]); [exact H |]. intros ->. destruct H as [(u & E) _]. destruct u as [| a u].
  - injection E as ->. now apply Hc.
  - destruct u; discriminate.
Qed.
Lemma good_nonempty x : good x -> x <> [].
Proof. intros [(u & ->) _]. now destruct u. Qed.
Lemma metavar_good x : forall inside m r, good x -> (forall d, inside = Some d -> In d x /\ d <> LF) ->
  parse_metavar_ inside x = (m, r) -> r <> [].
Proof.
  induction x as [| c x IH]; intros inside m r Hg Hi H; [now apply good_nonempty in Hg |]. cbn [parse_metavar_] in H.
  destruct inside as [d |].
  - destruct (Hi d eq_refl) as [Hin Hd]. destruct (N.eqb_spec c d) as [-> | Hcd].
    + destruct (parse_metavar_ None x) as [l q] eqn:E. injection H as <- <-. apply (IH None l q); [now apply good_tail in Hg | discriminate | exact E].
    + destruct (parse_metavar_ (Some d) x) as [l q] eqn:E. injection H as <- <-. destruct Hin as [-> | Hin]; [congruence |].
      apply (IH (Some d) l q); [| intros d' E'; injection E' as <-; now split | exact E].
      apply (good_suffix [c]); [exact Hg |]. intros ->. destruct Hin.
  - destruct (memc c [SP; TAB; LF]) eqn:Eb; [injection H as <- <-; discriminate |].
    assert (Hc : c <> LF) by (intros ->; discriminate).
    destruct (closing c) as [d |] eqn:Ec.
    + destruct (parse_metavar_ (Some d) x) as [l q] eqn:E. injection H as <- <-.
      destruct Hg as [Hl Hg]. destruct (Hg [] c x eq_refl) as (H1 & H2 & H3).
      apply (IH (Some d) l q); [apply (good_tail c); [now split | exact Hc] | | exact E].
      intros d' E'. injection E' as <-. split; [now apply H3 |]. unfold closing in Ec.
      repeat match type of Ec with (if N.eqb _ ?k then _ else _) = _ => destruct (N.eqb c k); [now injection Ec as <- |] end.
      destruct (memc c [DQ; SQ]); [| discriminate]. injection Ec as <-. exact Hc.
    + destruct (memc c OPTION_DELIMITER_CHARS); [injection H as <- <-; discriminate |].
      destruct (parse_metavar_ None x) as [l q] eqn:E. injection H as <- <-. apply (IH None l q); [now apply good_tail in Hg | discriminate | exact E].
Qed.
Lemma delimiter_good x : good x -> exists b r, parse_option_delimiter x = Ok (b, r) /\ (b = false -> r = x).
Proof.
  intros [(u & E) _]. unfold parse_option_delimiter. destruct (eat_space x) as [sp p] eqn:Es. cbn [snd].
  apply eat_space_spec in Es as (Ex & Hb & _). destruct p as [| c p].
  - exfalso. rewrite app_nil_r in Ex. rewrite Ex in E. assert (K : In LF sp) by (rewrite E; apply in_app_iff; right; now left).
    destruct (Hb LF K); discriminate.
  - destruct (memc c _); [exists true, p; split; [reflexivity | discriminate] | exists false, x; now split].
Qed.
Lemma option_good x : good x -> parse_option_with_metavar x = Ok None \/
  exists o r, parse_option_with_metavar x = Ok (Some (o, r)) /\ good r.
Proof.
  intros Hg. assert (S : forall o r, parse_option_with_metavar x = Ok (Some (o, r)) -> r <> [] -> good r).
  { intros o r E Hn. apply option_spec in E as (t & -> & _). now apply good_suffix in Hg. }
  revert S. unfold parse_option_with_metavar. destruct (parse_option_string x) as [[opt r] |] eqn:Eo; [| now left]. intros S. right.
  apply option_string_spec in Eo as (sp & -> & Hb & Ho & _).
  assert (Hr : good r).
  { rewrite app_assoc in Hg. apply (good_suffix _ _ Hg). intros ->. rewrite app_nil_r in Hg. destruct Hg as [(u & E) _].
    assert (K : In LF (sp ++ opt)) by (rewrite E; apply in_app_iff; right; now left). apply in_app_iff in K as [K | K].
    - destruct (Hb LF K); discriminate.
    - destruct Ho as (_ & _ & _ & Ho). destruct (Ho LF K) as (_ & _ & K' & _). now apply K'. }
  destruct (str_eqb _ _).
  { destruct (parse_metavar r) as [m q] eqn:Em. exists (MkOption opt (Some m) true), q. split; [reflexivity |]. apply (S _ _ eq_refl).
    apply (metavar_good r None m q Hr); [discriminate | exact Em]. }
  assert (T : forall c r', r = c :: r' -> c <> LF -> forall m q, parse_metavar r' = (m, q) -> q <> []).
  { intros c r' -> Hc m q Em. apply (metavar_good r' None m q); [now apply good_tail in Hr | discriminate | exact Em]. }
  destruct (peek_in [EQ] r) eqn:Ee.
  { destruct r as [| c r']; [discriminate |]. cbn [tl]. destruct (parse_metavar r') as [m q] eqn:Em.
    exists (MkOption opt (Some m) false), q. split; [reflexivity |]. apply (S _ _ ltac:(cbn [tl]; rewrite Em; reflexivity)).
    apply (T c r' eq_refl) with m; [| exact Em]. intros ->. discriminate. }
  destruct (isspace _); [exists (MkOption opt None false), r; now split |].
  destruct (delimiter_good r Hr) as (b & q & Ed & _). rewrite Ed in *. cbn [bind] in *. destruct b; [exists (MkOption opt None false), r; now split |].
  destruct (stream_is_space r) eqn:Es; [| exists (MkOption opt None false), r; now split].
  destruct r as [| c r']; [discriminate |]. cbn [tl] in *. destruct (parse_metavar r') as [m q'] eqn:Em.
  exists (MkOption opt (Some m) false), q'. split; [reflexivity |]. apply (S _ _ eq_refl).
  apply (T c r' eq_refl) with m; [| exact Em]. intros ->. discriminate.
Qed.
Lemma options_good fuel : forall acc x, List.length x <= fuel -> good x -> exists os r, options_loop fuel acc x = Ok (os, r).
Proof.
  induction fuel as [| fuel IH]; intros acc x Hl Hg; (destruct x as [| c x0]; [now apply good_nonempty in Hg |]); [cbn in Hl; lia |].
  cbn [options_loop]. set (x := c :: x0) in *. pose proof (option_shorter x) as Hs.
  destruct (option_good x Hg) as [-> | (o & r & E & Hr)]; cbn [bind]; [eauto |]. rewrite E in *. cbn [bind]. specialize (Hs o r eq_refl).
  destruct (delimiter_good r Hr) as (b & q & Ed & _). rewrite Ed. cbn [bind]. apply delimiter_spec in Ed. destruct b; [| eauto].
  destruct Ed as (sp & d & -> & _ & _). rewrite !app_length in Hs. cbn in Hs, Hl.
  destruct q as [| a q]; [destruct fuel; do 2 eexists; reflexivity |]. apply IH; [cbn in *; lia |]. apply (good_suffix (sp ++ [d])); [rewrite <- app_assoc; exact Hr | discriminate].
Qed.
Lemma parse_good x : complete_text x -> exists is, parse x = Ok is.
Proof.
  intros Hc. destruct x as [| c0 x0]; [now exists [] |]. set (x := c0 :: x0) in *. assert (Hg : good x) by (apply complete_good; [exact Hc | discriminate]).
  clear Hc. unfold parse. generalize (@nil item) as acc. assert (Hl : List.length x <= List.length x) by lia. revert Hl Hg. generalize (List.length x) at 2 3 as fuel. generalize x as y. clear.
  intros x fuel. revert x. induction fuel as [| fuel IH]; intros x Hl Hg acc; (destruct x as [| c x0]; [now apply good_nonempty in Hg |]); [cbn in Hl; lia |].
  cbn [parse_loop]. set (x := c :: x0) in *. pose proof (item_spec x) as Hs. unfold parse_options_with_description in *.
  destruct (options_good (List.length x) [] x (le_n _) Hg) as (os & r & E). rewrite E in *. cbn [bind] in *.
  assert (U : exists is, (let '(line, x') := eat_line x in parse_loop fuel (acc ++ [Unparsed line]) x') = inr is).
  { destruct (eat_line x) as [l q] eqn:El. pose proof (eat_line_nonempty x l q ltac:(discriminate) El). apply eat_line_spec in El as [E' _].
    destruct q as [| a q]; [destruct fuel; eexists; reflexivity |]. apply IH; [lia |]. rewrite E' in Hg. apply (good_suffix l); [exact Hg | discriminate]. }
  destruct os as [| o os]; [exact U |].
  assert (G : forall i r', (exists t, x = t ++ r' /\ t <> [] /\ item_text i t) -> exists is, parse_loop fuel (acc ++ [i]) r' = inr is).
  { intros i r' (t & E' & Hn & _). destruct r' as [| a r']; [destruct fuel; eexists; reflexivity |].
    apply IH; [rewrite E', app_length in Hl; destruct t; [congruence | cbn in *; lia] |]. rewrite E' in Hg. apply (good_suffix t); [exact Hg | discriminate]. }
  destruct (peek_in _ r).
  - destruct (description_only r) as (d & r' & Ed). rewrite Ed in *. cbn [bind] in *. apply G. now apply Hs.
  - cbn [bind] in *. apply G. now apply Hs.
Qed.
