(** * Proofs about what Bash scripts offer for a word that begins with a dash. *)
From Coq Require Import Permutation.
From Verif Require Import Base Value Dict Algo AlgoProofs Shell ShellProofs StrUtils Cli CliProofs CliMore SpecCli PyStr When SpecShell SpecWhen WhenProofs
  BashUtils BashParser SpecParser ParserPaths ParserTables ParserProofs SpecOffered BashOffers SpecBash BashStrings BashArguments BashDispatch BashPositionals BashFunctions.
Open Scope list_scope.

Definition settled (c : cmd) : Prop := not_only_optional c \/ forall o, In o (c_options c) -> arg_kind o = ArgNone.

(** What the theorems about Bash scripts need of a definition. *)
Record bash_ready (ere : str -> bool) (root : cmd) : Prop := {
  br_built : built root;
  br_commands : tame_commands root;
  br_options : tame_options root;
  br_numbers : tame_group_numbers root;
  br_arguments : proper_arguments root;
  br_variables : forall ps c o v, located root ps c -> In o (c_options c) -> opt_variable o = Ok v -> is_name v;
  br_conditions : forall ps c o e, located root ps c -> In o (c_options c) -> o_when o = Some e ->
    exists cond, parse_when ere e = Ok (map wtok_of (conds_syms cond));
  br_conditions_pos : forall ps c p e, located root ps c -> In p (c_positionals c) -> p_when p = Some e -> e <> [] ->
    exists cond, parse_when ere e = Ok (map wtok_of (conds_syms cond));
  br_words : forall ps c o x, located root ps c -> In o (c_options c) -> In x (o_strings o) -> plain_word x;
  br_settled : forall ps c, located root ps c -> settled c }.

Section Dashes.
Variables (ere : str -> bool) (f1 f2 f3 : str) (code : opt -> str) (pcode : pos -> str) (choices_code : list str -> str)
  (count : str -> nat) (other : str -> bool).
Variables (root : cmd).
Hypothesis R : bash_ready ere root.
Hypotheses (Hf1 : is_name f1) (Hf2 : is_name f2) (Hf3 : is_name f3).
Variable st : situation.
Let truth := bash_truth count other.
Notation condition := (condition_value ere f1 f2 f3 count other).

Section Place.
Variables (ps : list cmd) (c : cmd).
Hypothesis Hl : located root ps c.
Lemma place_vars d o v : In d (c :: ps) -> In o (c_options d) -> opt_variable o = Ok v -> is_name v.
Proof. intros Hd. destruct (located_parent root ps c d Hl Hd) as (qs & Hq). now apply (br_variables ere root R qs). Qed.

(** ** Arguments of options *)
Lemma no_arguments_no_master a m : (forall o, In o (c_options c) -> arg_kind o = ArgNone) ->
  get_master ere f1 f2 f3 code a c (get_options ps c false true) = Ok m -> master_empty m = true.
Proof.
  intros Hn H. assert (E : get_options ps c false true = []).
  { destruct (get_options ps c false true) as [| o l] eqn:E; [reflexivity | exfalso].
    assert (Ho : In o (get_options ps c false true)) by (rewrite E; now left).
    apply (argument_options root ps c (br_built _ _ R) Hl (br_arguments _ _ R)) in Ho as [Ho Hk]. now apply Hk, Hn. }
  rewrite E in H. unfold get_master in H. cbn [existsb filter nonempty] in H. cbv zeta in H.
  apply bind_ok in H as ([r o] & Hp & H). apply bind_ok in Hp as (r' & Hr & Hp). apply bind_ok in Hp as (o' & Ho & Hp).
  cbn [clauses_without_when] in Hr. apply inr_inj in Hr, Ho, Hp, H. subst r' o'. apply pair_inj in Hp as [<- <-]. now subst m.
Qed.
Variable script : option (info * master).
Hypothesis Hscript : generate_option_completion ere f1 f2 f3 code ps c = Ok script.
Lemma script_parts : (script = None /\ forall o, In o (c_options c) -> arg_kind o = ArgNone) \/
  exists i m a, script = Some (i, m) /\ get_option_abbreviator ps c = Ok a /\
    get_master ere f1 f2 f3 code a c (get_options ps c false true) = Ok m /\ get_info a ps c (get_options ps c false true) = Ok i /\ not_only_optional c.
Proof.
  unfold generate_option_completion in Hscript. cbv zeta in Hscript. pose proof Hscript as H. apply bind_ok in H as (a & Ha & H). apply bind_ok in H as (m & Hm & H).
  destruct (br_settled ere root R ps c Hl) as [Hno | Hnone].
  - right. destruct (master_empty m) eqn:Ee.
    + exfalso. rewrite (master_filled ere f1 f2 f3 code count other root ps c (br_built _ _ R) Hl (br_arguments _ _ R) a m Hm Hno) in Ee. discriminate.
    + apply bind_ok in H as (i & Hi & H). apply inr_inj in H. exists i, m, a. auto.
  - left. split; [| exact Hnone]. rewrite (no_arguments_no_master a m Hnone Hm) in H. now apply inr_inj in H.
Qed.

Notation avail := (available ere f1 f2 f3 count other c).
Theorem separate_run o : waiting_word (ps, c) (st_prev st) o -> avail o ->
  run_option_completion truth script st = ([Run (code o) (st_cur st) []], true).
Proof.
  intros Hw Hav. destruct script_parts as [[_ Hnone] | (i & m & a & -> & Ha & Hm & Hi & Hno)].
  - exfalso. assert (K : In o (c_options c) /\ arg_kind o = ArgRequired) by (destruct Hw as [o x [Ho _] Hk | o fl ch [Ho _] Hk]; auto).
    destruct K as [Ho Hk]. rewrite (Hnone o Ho) in Hk. discriminate.
  - apply (separate_argument ere f1 f2 f3 code count other root ps c (br_built _ _ R) Hl (br_options _ _ R) (br_numbers _ _ R) (br_arguments _ _ R) Hf1 Hf2 Hf3 place_vars
        (fun o e => br_conditions ere root R ps c o e Hl) a m i Ha Hm Hi Hno st o Hw Hav).
Qed.
Theorem attached_run o value prefix : attached_word (ps, c) (st_cur st) o value prefix -> avail o -> unclaimed (ps, c) (st_prev st) ->
  run_option_completion truth script st = ([Run (code o) value prefix], true).
Proof.
  intros Hw Hav. destruct script_parts as [[_ Hnone] | (i & m & a & -> & Ha & Hm & Hi & Hno)].
  - exfalso. assert (K : In o (c_options c) /\ arg_kind o <> ArgNone) by (destruct Hw as [o x t [Ho _] _ Hk | o fl ch t [Ho _] Hk]; auto).
    destruct K as [Ho Hk]. now apply Hk, Hnone.
  - apply (attached_argument ere f1 f2 f3 code count other root ps c (br_built _ _ R) Hl (br_options _ _ R) (br_numbers _ _ R) (br_arguments _ _ R) Hf1 Hf2 Hf3 place_vars
        (fun o e => br_conditions ere root R ps c o e Hl) a m i Ha Hm Hi Hno st o value prefix Hw Hav).
Qed.
Theorem quiet_run : unclaimed (ps, c) (st_prev st) -> no_argument (ps, c) (st_cur st) -> run_option_completion truth script st = nothing.
Proof.
  intros H1 H2. destruct script_parts as [[-> _] | (i & m & a & -> & Ha & Hm & Hi & Hno)]; [reflexivity |].
  apply (no_option_argument ere f1 f2 f3 code count other root ps c (br_built _ _ R) Hl (br_options _ _ R) (br_numbers _ _ R) (br_arguments _ _ R) Hf1 Hf2 Hf3 place_vars
        (fun o e => br_conditions ere root R ps c o e Hl) a m i Ha Hm Hi Hno st H1 H2).
Qed.
End Place.

(** ** Words that begin with a dash *)

(** At this place no argument of an option is completed, and options are offered. *)
Record quiet (p : place) : Prop := {
  quiet_prev_word : unclaimed p (st_prev st);
  quiet_cur_word : no_argument p (st_cur st);
  quiet_command_arg : forall q, In q (c_positionals (snd p)) -> is_command_arg q = false;
  quiet_worth : is_worth_a_function (snd p) = true;
  quiet_options : c_options (snd p) <> [] }.

Notation own := (run_own ere f1 f2 f3 code pcode choices_code truth).
Definition offered_here (p : place) (x : str) : Prop :=
  exists o, In o (c_options (snd p)) /\ offered_text o x /\ string_offered count variable_of condition (fst p) (snd p) o.

Lemma own_dash ps c l b : located root ps c -> st_end st = false -> is_prefix [DASH] (st_cur st) -> quiet (ps, c) ->
  own ps c st = Ok (l, b) -> b = false /\ exists ws, l = [Words ws] /\ forall x, In x ws <-> is_prefix (st_cur st) x /\ offered_here (ps, c) x.
Proof.
  intros Hl He Hd Q H. unfold run_own in H. cbv zeta in H. apply bind_ok in H as (script & Hs & H). apply bind_ok in H as (strings & Hst & H).
  apply bind_ok in H as (blocks & Hbl & H). apply inr_inj in H.
  assert (Ec : command_arg ps c = None).
  { unfold command_arg. destruct (find is_command_arg (c_positionals c)) as [q |] eqn:E; [| reflexivity]. apply find_some in E as [Hq E].
    rewrite (quiet_command_arg _ Q q Hq) in E. discriminate. }
  rewrite Ec, (quiet_run ps c Hl script Hs (quiet_prev_word _ Q) (quiet_cur_word _ Q)) in H.
  assert (Esome : exists sc, strings = Some sc).
  { unfold generate_option_strings in Hst. destruct (nonempty (get_options ps c false false)) eqn:En; cbn [negb] in Hst.
    - apply bind_ok in Hst as (fc & _ & Hst). apply bind_ok in Hst as (os & _ & Hst). apply inr_inj in Hst. eauto.
    - exfalso. destruct (get_options_visible root ps c (br_built _ _ R) Hl) as (_ & _ & _ & P). pose proof (quiet_options _ Q) as Hne. cbn [snd] in Hne.
      destruct (c_options c) as [| o os]; [now destruct Hne |]. assert (Hin : In o (get_options ps c false false)) by (apply (Permutation_in _ (Permutation_sym P)); now left).
      destruct (get_options ps c false false); [destruct Hin | discriminate En]. }
  destruct Esome as (sc & ->). rewrite He in H. apply prefix_dash in Hd. rewrite Hd in H. cbn [negb andb] in H.
  apply pair_inj in H as [H1 H2]. cbn [fst snd app] in H1, H2. split; [now symmetry |]. eexists. split; [symmetry; exact H1 |].
  intros x. apply (strings_offered ere f1 f2 f3 count other root ps c (br_built _ _ R) Hl Hf1 Hf2 Hf3 (place_vars ps c Hl)
        (fun o e => br_conditions ere root R ps c o e Hl) (fun o x => br_words ere root R ps c o x Hl) sc (st_cur st) x Hst).
Qed.

Definition words_of (l : list offer) : list str := flat_map (fun f => match f with Words ws => ws | _ => [] end) l.
Lemma places_dash places : (forall p, In p places -> located root (fst p) (snd p) /\ quiet p) -> st_end st = false -> is_prefix [DASH] (st_cur st) ->
  forall l b, one_by_one (fun p => own_part ere f1 f2 f3 code pcode choices_code truth st (fst p) (snd p)) places l b ->
  b = false /\ (forall f, In f l -> exists ws, f = Words ws) /\
  forall x, In x (words_of l) <-> is_prefix (st_cur st) x /\ exists p, In p places /\ offered_here p x.
Proof.
  intros Hall He Hd l b H. 
  assert (K : forall p lp bp, In p places -> own_part ere f1 f2 f3 code pcode choices_code truth st (fst p) (snd p) lp bp ->
    bp = false /\ exists ws, lp = [Words ws] /\ forall x, In x ws <-> is_prefix (st_cur st) x /\ offered_here p x).
  { intros [qs d] lp bp Hp Ho. destruct (Hall _ Hp) as [Hlp Q]. cbn [fst snd] in *. apply (own_dash qs d lp bp Hlp He Hd Q).
    unfold own_part in Ho. pose proof (quiet_worth _ Q) as Hw. cbn [snd] in Hw. destruct qs; [exact Ho | now rewrite Hw in Ho]. }
  clear Hall. induction H as [| p rest l Ho | p rest l l' b Ho H IH].
  - split; [reflexivity |]. split; [intros f [] |]. intros x. cbn. split; [intros [] | intros (_ & p & [] & _)].
  - destruct (K p l true (or_introl eq_refl) Ho) as [E _]. discriminate.
  - destruct (K p l false (or_introl eq_refl) Ho) as (_ & ws & -> & Hws). destruct IH as (-> & I2 & I3); [intros q lp bp Hq; apply K; now right |].
    split; [reflexivity |]. split; [intros f [<- | Hf]; [eauto | now apply I2] |].
    intros x. unfold words_of. cbn [app flat_map]. rewrite in_app_iff, Hws. fold (words_of l'). rewrite I3. split.
    + intros [[Hp Hx] | (Hp & q & Hq & Hx)]; (split; [exact Hp |]); [exists p; split; [now left | exact Hx] | exists q; split; [now right | exact Hx]].
    + intros (Hp & q & [<- | Hq] & Hx); [left | right]; eauto.
Qed.
Lemma asked_located ps c p : located root ps c -> In p (asked (ps, c)) -> located root (fst p) (snd p).
Proof.
  intros Hl Hp. apply asked_scope in Hp as [-> | [Ha _]]; [exact Hl |]. cbn [fst] in Ha.
  induction Hl as [| ps q sub Hl IH Hs]; [destruct Ha |]. cbn [ancestors] in Ha. destruct Ha as [<- | Ha]; [exact Hl | now apply IH].
Qed.

Theorem dash_words ps c l b : located root ps c -> selected (st_positionals st) ps c ->
  (forall w sub, nth_positional (st_positionals st) (taken (c :: ps)) w -> In sub (subs c) -> ~ names c sub w) ->
  st_end st = false -> is_prefix [DASH] (st_cur st) -> (forall p, in_scope (ps, c) p -> quiet p) ->
  run_function ere f1 f2 f3 code pcode choices_code truth st [] root = Ok (l, b) ->
  b = false /\ (forall f, In f l -> exists ws, f = Words ws) /\
  forall x, In x (words_of l) <-> is_prefix (st_cur st) x /\ exists p, in_scope (ps, c) p /\ offered_here p x.
Proof.
  intros Hl Hsel Hno He Hd Hq H.
  pose proof (functions_run ere f1 f2 f3 code pcode choices_code truth root (br_commands _ _ R) st ps c l b Hl Hsel Hno H) as Ho.
  assert (Hall : forall p, In p (asked (ps, c)) -> located root (fst p) (snd p) /\ quiet p).
  { intros p Hp. split; [now apply (asked_located ps c) | now apply Hq, asked_scope]. }
  destruct (places_dash (asked (ps, c)) Hall He Hd l b Ho) as (H1 & H2 & H3). split; [exact H1 |]. split; [exact H2 |].
  intros x. rewrite H3. split; intros (Hp & p & Hin & Hx); (split; [exact Hp |]); exists p; (split; [now apply asked_scope | exact Hx]).
Qed.
End Dashes.
