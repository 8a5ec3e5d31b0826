(** * Proofs about the functions of Bash scripts. *)
From Coq Require Import Permutation.
From Verif Require Import Base Value Dict Algo AlgoProofs Shell ShellProofs StrUtils Cli CliProofs SpecCli PyStr When SpecShell SpecWhen WhenProofs
  BashPatterns BashPatternsProofs BashUtils SpecGlob GlobMatch BashParser SpecParser ParserPaths ParserTables ParserProofs SpecOffered BashOffers SpecBash BashStrings BashArguments BashDispatch BashPositionals.
Open Scope list_scope.

Lemma asked_scope here p : In p (asked here) <-> in_scope here p.
Proof.
  unfold asked, in_scope. cbn [In]. rewrite filter_In. unfold passes_on.
  assert (E : match c_inherit (snd p) with XFalse => false | _ => true end = true <-> c_inherit (snd p) <> XFalse).
  { destruct (c_inherit (snd p)); split; intros H; try reflexivity; try discriminate; now destruct H. }
  rewrite E. intuition congruence.
Qed.

Section Functions.
Variables (ere : str -> bool) (f1 f2 f3 : str) (code : opt -> str) (pcode : pos -> str) (choices_code : list str -> str) (truth : str -> bool).
Variables (root : cmd).
Hypotheses (Hb : built root) (Htc : tame_commands root).
Variable st : situation.

Notation function := (run_function ere f1 f2 f3 code pcode choices_code truth st).
Notation own := (run_own ere f1 f2 f3 code pcode choices_code truth).

Lemma name_pattern_ok ps c sub pattern w : located root ps c -> In sub (subs c) -> name_pattern c sub = Ok pattern ->
  (case_matchb pattern w = true <-> names c sub w).
Proof.
  intros Hl Hs H. unfold name_pattern in H. apply bind_ok in H as (vs & Hvs & H). apply inr_inj in H. subst pattern.
  assert (Hg : good_name (c_prog sub)) by (eapply (tame_names root Htc); [exact Hl | exact Hs | now left]).
  pose proof (variations_names c sub vs Hs (proj1 Hg) Hvs) as Hn.
  assert (Hgood : forall x, In x vs -> good_name x) by (intros x Hx; apply (names_good root ps c sub x Htc Hl Hs); now apply Hn).
  assert (Eq : map quote vs = vs).
  { rewrite <- (map_id vs) at 2. apply map_ext_in. intros x Hx. destruct (Hgood x Hx) as [H1 H2]. apply quote_safe; [exact H1 | now apply name_safe]. }
  rewrite Eq, case_matchb_iff, make_pattern_exact.
  - apply Hn.
  - intros E. assert (Hin : In (c_prog sub) vs) by (apply Hn; now left). rewrite E in Hin. destruct Hin.
  - intros y Hy. destruct (Hgood y Hy) as [H1 H2]. split; [exact H1 | now apply safe_all_plain, name_safe].
  - apply (tame_numbers root Htc ps c sub Hl Hs vs); [intros x; apply Hn | intros x [Hx _]; now apply Hn].
Qed.

Definition inh (c : cmd) : bool := negb (xbool_eqb (c_inherit c) XFalse).
Lemma inh_iff c : inh c = true <-> passes_on c.
Proof. unfold inh, passes_on. destruct (c_inherit c); cbn; split; intros H; try reflexivity; try discriminate; now destruct H. Qed.

(** The word at the place where the name of a sub-command stands. *)
Definition at_selector (ps : list cmd) (c : cmd) (w : str) : Prop := nth_positional (st_positionals st) (taken (c :: ps)) w.

Lemma selector_array ps c w : located root ps c -> at_selector ps c w ->
  (positional_index ps (subcommands_number c) <? Z.of_nat (List.length (st_positionals st)))%Z = true /\
  array_at (st_positionals st) (positional_index ps (subcommands_number c)) = w.
Proof.
  intros Hl [H1 H2]. pose proof (selector_number root ps c Hl) as E. unfold taken, sum in *. cbn [map fold_right] in *.
  set (n := positional_index ps (subcommands_number c)) in *.
  assert (En : n = (consumed c + fold_right Z.add 0 (map consumed ps) - 1)%Z) by lia. rewrite <- En in H2.
  assert (Hlt : (Z.to_nat n < List.length (st_positionals st))%nat) by (apply nth_error_Some; congruence).
  split; [apply Z.ltb_lt; lia |]. unfold array_at. destruct (Z.ltb_spec n 0) as [C | _]; [lia |]. cbv zeta.
  destruct (Z.ltb_spec n 0) as [C | _]; [lia |]. now apply nth_error_nth.
Qed.
Lemma no_selector ps c : located root ps c -> (forall w, ~ at_selector ps c w) ->
  (positional_index ps (subcommands_number c) <? Z.of_nat (List.length (st_positionals st)))%Z = false.
Proof.
  intros Hl H. apply Z.ltb_ge. pose proof (selector_number root ps c Hl) as E. pose proof (consumed_pos c). pose proof (sum_nonneg ps).
  destruct (Z.le_gt_cases (Z.of_nat (List.length (st_positionals st))) (positional_index ps (subcommands_number c))) as [G | G]; [exact G | exfalso].
  destruct (nth_error (st_positionals st) (Z.to_nat (taken (c :: ps) - 1))) as [w |] eqn:Ew.
  - apply (H w). split; [| exact Ew]. unfold taken. cbn [map]. unfold sum in *. cbn [fold_right]. lia.
  - apply nth_error_None in Ew. unfold taken in Ew. cbn [map] in Ew. unfold sum in *. cbn [fold_right] in Ew. lia.
Qed.

(** The function of a command, and what it does in the calls of other functions. *)
Definition called_as (parent sub : cmd) (ps : list cmd) (r : outcome) : Prop :=
  if is_worth_a_function sub then function (parent :: ps) sub = Ok r else r = ([], negb (inh parent)).
Lemma clauses_spec ps c w : located root ps c -> forall l called, (forall x, In x l -> In x (subs c)) ->
  (fix clauses (l : list cmd) : res (outcome * bool) :=
     match l with
     | [] => Ok (nothing, false)
     | sub :: l' =>
         do pattern <- name_pattern c sub;
         if case_matchb pattern w then
           if is_worth_a_function sub then
             do r <- function (c :: ps) sub; Ok (r, negb (inh c))
           else if inh c then Ok (nothing, false) else Ok (([], true), true)
         else clauses l'
     end) l = Ok called ->
  (forall sub, In sub l -> names c sub w -> snd called = negb (inh c) /\ called_as c sub ps (fst called)) /\
  ((forall sub, In sub l -> ~ names c sub w) -> called = (nothing, false)).
Proof.
  intros Hl. induction l as [| d l IH]; intros called Hsub H; [split; [intros sub [] |]; intros _; apply inr_inj in H; now symmetry |].
  apply bind_ok in H as (pattern & Hp & H). pose proof (name_pattern_ok ps c d pattern w Hl (Hsub d (or_introl eq_refl)) Hp) as Hm.
  destruct (case_matchb pattern w) eqn:Em.
  - pose proof (proj1 Hm eq_refl) as Hd. split.
    + intros sub Hs Hn. assert (sub = d) as -> by (apply (tame_unique root Htc ps c sub d w Hl); auto; apply Hsub; now left).
      unfold called_as. destruct (is_worth_a_function d).
      * apply bind_ok in H as (r & Hr & H). apply inr_inj in H. subst called. auto.
      * destruct (inh c); apply inr_inj in H; subst called; auto.
    + intros Hno. exfalso. apply (Hno d); [now left | exact Hd].
  - destruct (IH called (fun x Hx => Hsub x (or_intror Hx)) H) as [I1 I2].
    assert (Hd : ~ names c d w) by (intros Hd; apply Hm in Hd; discriminate). split.
    + intros sub [<- | Hs] Hn; [contradiction | now apply I1].
    + intros Hno. apply I2. intros sub Hs. apply Hno. now right.
Qed.

Lemma function_sub ps c sub w r : located root ps c -> In sub (subs c) -> at_selector ps c w -> names c sub w ->
  function ps c = Ok r ->
  exists rs, called_as c sub ps rs /\
    (if inh c then exists o, own ps c st = Ok o /\ r = then_ rs o else r = rs).
Proof.
  intros Hl Hs Hat Hn H. destruct (selector_array ps c w Hl Hat) as [E1 E2].
  assert (K : exists l, c_subcommands c = Some l) by (unfold subs in Hs; destruct (c_subcommands c); [eauto | destruct Hs]). destruct K as (l & El).
  assert (Es : subs c = l) by (unfold subs; now rewrite El).
  pose proof (clauses_spec ps c w Hl l) as HC. unfold inh in HC.
  destruct c as [c1 c2 c3 c4 c5 c6 inherit c8 c9 sc]. cbn [c_subcommands] in El. subst sc. cbn [run_function] in H. cbn [c_inherit] in HC.
  apply bind_ok in H as ([rs returns] & Hcalled & H). rewrite E1, E2 in Hcalled.
  apply (HC (rs, returns)) in Hcalled; [| rewrite Es; auto]. destruct Hcalled as [H1 _]. destruct (H1 sub) as [H2 H3]; [now rewrite <- Es | exact Hn |].
  cbn [fst snd] in *. exists rs. split; [exact H3 |]. unfold inh. cbn [c_inherit]. subst returns. destruct (negb (xbool_eqb inherit XFalse)); cbn [negb] in H.
  - apply bind_ok in H as (o & Ho & H). apply inr_inj in H. exists o. auto.
  - apply inr_inj in H. now symmetry.
Qed.
Lemma function_here ps c r : located root ps c -> (forall w sub, at_selector ps c w -> In sub (subs c) -> ~ names c sub w) ->
  function ps c = Ok r -> own ps c st = Ok r.
Proof.
  intros Hl Hno H.
  assert (Hsel : (exists w, at_selector ps c w) \/ (forall w, ~ at_selector ps c w)).
  { unfold at_selector, nth_positional. destruct (nth_error (st_positionals st) (Z.to_nat (taken (c :: ps) - 1))) as [w |].
    - destruct (Z.le_gt_cases 1 (taken (c :: ps))); [left; exists w; auto | right; intros w' [C _]; lia].
    - right. intros w' [_ C]. discriminate. }
  pose proof (fun w => clauses_spec ps c w Hl (subs c)) as HC. unfold inh in HC.
  pose proof (fun w (Hw : at_selector ps c w) => selector_array ps c w Hl Hw) as HA. pose proof (no_selector ps c Hl) as HN.
  assert (Et : forall o : outcome, then_ nothing o = o) by (intros [a b]; reflexivity).
  destruct c as [c1 c2 c3 c4 c5 c6 inherit c8 c9 sc]. cbn [run_function] in H. cbn [c_inherit] in HC.
  apply bind_ok in H as ([rs returns] & Hcalled & H).
  assert (E : (rs, returns) = (nothing, false)).
  { destruct sc as [l |]; [| apply inr_inj in Hcalled; now symmetry]. destruct Hsel as [(w & Hw) | Hnone].
    - destruct (HA w Hw) as [E1 E2]. rewrite E1, E2 in Hcalled. apply (HC w (rs, returns)) in Hcalled; [| auto]. apply Hcalled.
      intros sub Hs. now apply Hno.
    - rewrite (HN Hnone) in Hcalled. apply inr_inj in Hcalled. now symmetry. }
  apply pair_inj in E as [-> ->]. apply bind_ok in H as (o & Ho & H). apply inr_inj in H. rewrite Et in H. now subst o.
Qed.

(** The own part of the function of a command; there is none if the command is not worth one. *)
Definition own_part (ps : list cmd) (c : cmd) (l : list offer) (b : bool) : Prop :=
  match ps with
  | p :: _ => if is_worth_a_function c then own ps c st = Ok (l, b) else l = [] /\ b = negb (inh p)
  | [] => own ps c st = Ok (l, b)
  end.
(** What the functions above make of it. *)
Fixpoint above (ps : list cmd) (rc r : outcome) : Prop :=
  match ps with
  | [] => r = rc
  | p :: ps' => if inh p then exists o, own ps' p st = Ok o /\ above ps' (then_ rc o) r else above ps' rc r
  end.
Lemma above_true ps l r : above ps (l, true) r -> r = (l, true).
Proof.
  induction ps as [| p ps IH]; [exact (fun H => H) |]. cbn [above]. destruct (inh p); [intros (o & _ & H) | intros H]; now apply IH.
Qed.
Lemma descend ps c : located root ps c -> forall r, function [] root = Ok r -> selected (st_positionals st) ps c ->
  exists rc, match ps with p :: ps' => called_as p c ps' rc | [] => function [] c = Ok rc end /\ above ps rc r.
Proof.
  induction 1 as [| ps p sub Hl IH Hs]; intros r Hr Hsel; [exists r; split; [exact Hr | reflexivity] |].
  destruct Hsel as [Hsel (w & Hw & Hn)]. destruct (IH r Hr Hsel) as (rp & Hrp & Ha).
  assert (Hfun : function ps p = Ok rp).
  { assert (Hworth : is_worth_a_function p = true) by (unfold is_worth_a_function, subs in *; destruct (c_subcommands p); [reflexivity | destruct Hs]).
    destruct ps as [| q ps]; [exact Hrp |]. unfold called_as in Hrp. now rewrite Hworth in Hrp. }
  destruct (function_sub ps p sub w rp Hl Hs Hw Hn Hfun) as (rs & Hrs & E). exists rs. split; [exact Hrs |]. cbn [above].
  destruct (inh p); [destruct E as (o & Ho & ->); exists o; auto | now subst rp].
Qed.

Lemma above_places ps : forall l r, above ps (l, false) r ->
  (forall p, In p ps -> subs p <> []) ->
  exists l' b, one_by_one (fun p => own_part (fst p) (snd p)) (tl (asked (ps, root))) l' b /\ r = (l ++ l', b).
Proof.
  cbn [asked tl]. induction ps as [| p ps IH]; intros l r H Hsub.
  - exists [], false. split; [constructor |]. cbn [above] in H. now rewrite app_nil_r.
  - cbn [fst ancestors filter snd] in *. cbn [above] in H.
    assert (Hw : is_worth_a_function p = true).
    { specialize (Hsub p (or_introl eq_refl)). unfold is_worth_a_function, subs in *. destruct (c_subcommands p); [reflexivity | now destruct Hsub]. }
    assert (Hown : forall o, own ps p st = Ok o -> own_part ps p (fst o) (snd o)).
    { intros [lo bo] Ho. unfold own_part. cbn [fst snd]. destruct ps; [exact Ho | now rewrite Hw]. }
    assert (Ei : (match c_inherit p with XFalse => false | _ => true end) = inh p) by (unfold inh; now destruct (c_inherit p)). rewrite Ei.
    assert (Hsub' : forall q, In q ps -> subs q <> []) by (intros q Hq; apply Hsub; now right).
    destruct (inh p).
    + destruct H as ([lo bo] & Ho & H). specialize (Hown _ Ho). cbn [fst snd] in Hown. unfold then_ in H. cbn [fst snd] in H. destruct bo.
      * apply above_true in H. exists lo, true. split; [now apply obo_done | exact H].
      * destruct (IH _ _ H Hsub') as (l' & b & H1 & H2). exists (lo ++ l'), b. split; [now apply obo_on | now rewrite app_assoc].
    + destruct (IH _ _ H Hsub') as (l' & b & H1 & H2). exists l', b. auto.
Qed.
Lemma ancestors_subs ps c : located root ps c -> forall p, In p ps -> subs p <> [].
Proof.
  induction 1 as [| ps p sub Hl IH Hs]; [intros p [] |]. intros q [<- | Hq]; [| now apply IH]. intros E. rewrite E in Hs. destruct Hs.
Qed.

(** The functions are run from that of the selected command upwards. *)
Theorem functions_run ps c l b : located root ps c -> selected (st_positionals st) ps c ->
  (forall w sub, at_selector ps c w -> In sub (subs c) -> ~ names c sub w) ->
  function [] root = Ok (l, b) ->
  one_by_one (fun p => own_part (fst p) (snd p)) (asked (ps, c)) l b.
Proof.
  intros Hl Hsel Hno Hr. destruct (descend ps c Hl _ Hr Hsel) as ([lc bc] & Hc & Ha).
  assert (Hown : own_part ps c lc bc).
  { unfold own_part. destruct ps as [| p ps].
    - now apply function_here in Hc.
    - unfold called_as in Hc. destruct (is_worth_a_function c); [now apply function_here in Hc | now apply pair_inj in Hc]. }
  unfold asked. destruct bc.
  - apply above_true in Ha. apply pair_inj in Ha as [-> ->]. now apply obo_done.
  - destruct (above_places ps lc (l, b) Ha (ancestors_subs ps c Hl)) as (l' & b' & H1 & H2). apply pair_inj in H2 as [-> ->].
    apply obo_on; [exact Hown | exact H1].
Qed.
End Functions.
