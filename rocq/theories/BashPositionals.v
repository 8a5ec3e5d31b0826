(** * Proofs about how Bash scripts complete positional arguments and names of sub-commands. *)
From Coq Require Import Permutation.
From Verif Require Import Base Value Dict Algo AlgoProofs Shell StrUtils Cli CliProofs SpecCli PyStr When SpecShell SpecWhen WhenProofs
  BashUtils BashParser SpecParser ParserPaths ParserProofs SpecOffered BashOffers SpecBash BashStrings BashArguments.
Open Scope list_scope.

Local Ltac splits := repeat match goal with |- _ /\ _ => split end.
Section Positionals.
Variables (ere : str -> bool) (f1 f2 f3 : str) (pcode : pos -> str) (choices_code : list str -> str) (count : str -> nat) (other : str -> bool).
Variables (root : cmd) (ps : list cmd) (c : cmd).
Hypotheses (Hl : located root ps c).
Hypotheses (Hf1 : is_name f1) (Hf2 : is_name f2) (Hf3 : is_name f3).
Hypothesis Hvars : forall d o v, In d (c :: ps) -> In o (c_options d) -> opt_variable o = Ok v -> is_name v.
Hypothesis Hwhen : forall p e, In p (c_positionals c) -> p_when p = Some e -> e <> [] ->
  exists cond, parse_when ere e = Ok (map wtok_of (conds_syms cond)).

Let truth := bash_truth count other.
Notation condition := (condition_value ere f1 f2 f3 count other).
Definition ready (p : pos) : Prop := forall e, p_when p = Some e -> e <> [] -> condition c e true.

Lemma pos_when_value e p text : In p (c_positionals c) -> p_when p = Some e -> e <> [] -> generate_when_conditions ere f1 f2 f3 c e = Ok text ->
  (succeeds truth text = true <-> condition c e true).
Proof.
  intros Ho Ew Hne Ht. destruct (Hwhen p e Ho Ew Hne) as (cnd & Hp). unfold generate_when_conditions in Ht.
  assert (Hv : forall cnd', parse_when ere e = Ok (map wtok_of (conds_syms cnd')) ->
    sh_eval truth text = Some (conds_true (bash_true truth (when_env f1 f2 f3 c)) cnd')).
  { intros cnd' Hp'. destruct (bash_meaning ere _ e cnd' text (env_good f1 f2 f3 ps c Hf1 Hf2 Hf3 Hvars) Hp' Ht truth (s "x") (s "x")) as (H & _); try discriminate; try reflexivity. exact H. }
  unfold succeeds. rewrite (Hv cnd Hp). split.
  - intros H. exists cnd. auto.
  - intros (cnd' & Hp' & H). pose proof (Hv cnd Hp) as E. rewrite (Hv cnd' Hp') in E. injection E as E. rewrite <- E. exact H.
Qed.

Variables (before : list str) (st : situation).
Hypothesis Hcount : List.length (st_positionals st) = S (List.length before).
Hypothesis Hsel : selected before ps c.

Definition reached (b : positional_block) : bool :=
  existsb (test_count (List.length (st_positionals st))) (fst b) &&
  match fst (snd b) with Some cond => succeeds truth cond | None => true end.
Lemma test_offered p : test_count (List.length (st_positionals st)) (positional_test ps p) = true <-> positional_offered before ps c p.
Proof.
  unfold test_count, positional_test, positional_offered, taken. cbn [fst snd]. rewrite (positional_index_eq root ps c _ Hl), Hcount.
  destruct (p_repeatable p); [rewrite Z.leb_le | rewrite Z.eqb_eq]; split; [intros H; split; [lia | exact Hsel] | intros [H _]; lia
    | intros H; split; [lia | exact Hsel] | intros [H _]; lia].
Qed.
Lemma sub_offered : existsb (test_count (List.length (st_positionals st))) (fst (subcommand_positional choices_code ps c)) = true <-> subcommands_offered before ps c.
Proof.
  unfold subcommand_positional, subcommands_offered. cbn [fst existsb]. rewrite orb_false_r. unfold test_count. cbn [fst snd]. rewrite Z.eqb_eq, Hcount.
  pose proof (positional_index_eq root ps c (subcommands_number c) Hl) as E. unfold taken. cbn [map sum].
  unfold subcommands_number, consumed, sum in *. rewrite highest_eq in *. cbn [fold_right].
  split; [intros H; split; [| exact Hsel] | intros [H _]].
  { lia. } lia.
Qed.

Lemma is_command_arg_iff p : is_command_arg p = true <-> exists l, p_complete p = VStr (s "command_arg") :: l.
Proof.
  unfold is_command_arg, completer_is. destruct (p_complete p) as [| v l]; [split; [discriminate | intros (l' & E); discriminate] |].
  destruct v as [| | | | | |] eqn:Ev; try (split; [discriminate | intros (l' & E); discriminate]).
  match goal with |- str_eqb ?x _ = true <-> _ => destruct (str_eqb_spec x (s "command_arg")) as [E | Hne]; [| clear Ev] end.
  - rewrite E. split; intros _; eauto.
  - split; [discriminate |]. intros (l' & E). congruence.
Qed.
Lemma group_by_In (l : list pos) :
  (forall k g p, In (k, g) (group_by str_eqb l pcode) -> In p g -> In p l /\ pcode p = k) /\
  (forall p, In p l -> exists g, In (pcode p, g) (group_by str_eqb l pcode) /\ In p g).
Proof.
  pose proof (group_by_nonempty str_eqb (list_eq_dec N.eq_dec) str_eqb_spec pcode l) as G. split.
  - intros k g p Hg Hp. now apply (proj2 (G k g Hg)).
  - intros p Hp. assert (Hk : exists g, In (pcode p, g) (group_by str_eqb l pcode)).
    { rewrite (group_by_eq str_eqb (list_eq_dec N.eq_dec) str_eqb_spec). unfold groups_of. eexists.
      apply in_map_iff. exists (pcode p). split; [reflexivity |]. rewrite <- in_rev. apply nodup_In. rewrite <- in_rev. now apply in_map. }
    destruct Hk as (g & Hg). exists g. split; [exact Hg |]. apply (proj2 (G _ g Hg)). auto.
Qed.
(** The positional arguments that this part of the script completes. *)
Definition ordinary (p : pos) : Prop := In p (c_positionals c) /\ ~ exists l, p_complete p = VStr (s "command_arg") :: l.
Lemma ordinary_In p : In p (filter (fun p => negb (is_command_arg p)) (c_positionals c)) <-> ordinary p.
Proof.
  rewrite filter_In, negb_true_iff. unfold ordinary. rewrite <- is_command_arg_iff. destruct (is_command_arg p); intuition congruence.
Qed.

Lemma blocks_spec blocks :
  generate_positionals ere f1 f2 f3 pcode choices_code ps c = Ok blocks ->
  (forall b, In b blocks -> reached b = true ->
     (exists p, ordinary p /\ positional_offered before ps c p /\ ready p /\ snd (snd b) = pcode p) \/
     (c_subcommands c <> None /\ subcommands_offered before ps c /\ snd (snd b) = choices_code (get_choices c))) /\
  (forall p, ordinary p -> positional_offered before ps c p -> ready p -> exists b, In b blocks /\ reached b = true) /\
  (c_subcommands c <> None -> subcommands_offered before ps c -> exists b, In b blocks /\ reached b = true).
Proof.
  intros H. unfold generate_positionals in H. cbv zeta in H. apply bind_ok in H as (own & Hown & H). apply inr_inj in H. subst blocks.
  set (l := filter (fun p => negb (is_command_arg p)) (c_positionals c)) in *.
  assert (Hlst : forall p, In p l <-> ordinary p) by exact ordinary_In.
  enough (G : (forall b, In b own -> reached b = true -> exists p, In p l /\ positional_offered before ps c p /\ ready p /\ snd (snd b) = pcode p) /\
    (forall p, In p l -> positional_offered before ps c p -> ready p -> exists b, In b own /\ reached b = true)).
  { destruct G as [G1 G2]. splits.
    - intros b Hb Hr. apply in_app_or in Hb as [Hb | Hb].
      + left. destruct (G1 b Hb Hr) as (p & Hp & H). exists p. split; [now apply Hlst | exact H].
      + right. destruct (c_subcommands c) eqn:Es; cbn [is_some] in Hb; [| destruct Hb]. destruct Hb as [<- | []].
        split; [discriminate |]. split; [| reflexivity]. apply andb_prop in Hr as [Hr _]. now apply sub_offered.
    - intros p Hp Hoff Hr. destruct (G2 p (proj2 (Hlst p) Hp) Hoff Hr) as (b & Hb & Hre). exists b. split; [apply in_or_app; now left | exact Hre].
    - intros Hs Hoff. exists (subcommand_positional choices_code ps c). split.
      + apply in_or_app. right. destruct (c_subcommands c); [now left | congruence].
      + unfold reached. apply andb_true_intro. split; [now apply sub_offered | reflexivity]. }
  destruct (existsb (fun p => otruthy (p_when p)) (c_positionals c)) eqn:Ew.
  - (* with conditions *)
    apply map_res_ok in Hown.
    assert (K : forall p b, In p (c_positionals c) ->
      (do cond <- match p_when p with Some ((_ :: _) as e) => do w <- generate_when_conditions ere f1 f2 f3 c e; Ok (Some w) | _ => Ok None end;
       Ok ([positional_test ps p], (cond, pcode p))) = Ok b ->
      (reached b = true <-> positional_offered before ps c p /\ ready p) /\ snd (snd b) = pcode p).
    { intros p b Hp Hbk. apply bind_ok in Hbk as (cond & Hc & Hbk). apply inr_inj in Hbk. subst b. cbn [snd fst]. split; [| reflexivity].
      unfold reached. cbn [fst snd existsb]. rewrite orb_false_r, andb_true_iff, test_offered.
      enough (E : match cond with Some cond => succeeds truth cond | None => true end = true <-> ready p) by (rewrite E; reflexivity).
      unfold ready. destruct (p_when p) as [[| ch e] |] eqn:Epw.
      - apply inr_inj in Hc. subst cond. split; [intros _ e E Hne; congruence | reflexivity].
      - apply bind_ok in Hc as (w & Hw & Hc). apply inr_inj in Hc. subst cond.
        rewrite (pos_when_value (ch :: e) p w Hp Epw ltac:(discriminate) Hw). split; [intros H e' E _; congruence |]. intros H. apply H; [reflexivity | discriminate].
      - apply inr_inj in Hc. subst cond. split; [intros _ e E; discriminate | reflexivity]. }
    split.
    + intros b Hb Hr. destruct (Forall2_In_r _ _ _ b Hown Hb) as (p & Hp & E). pose proof (proj1 (Hlst p) Hp) as [Hp' _].
      destruct (K p b Hp' E) as [K1 K2]. destruct (proj1 K1 Hr) as [Hoff Hrd]. exists p. auto.
    + intros p Hp Ho Hrd. destruct (Forall2_In_l _ _ _ p Hown Hp) as (b & Hb & E). pose proof (proj1 (Hlst p) Hp) as [Hp' _].
      exists b. split; [exact Hb |]. apply (K p b Hp' E). auto.
  - (* without *)
    assert (Hrd : forall p, In p l -> ready p).
    { intros p Hp e E Hne. apply Hlst in Hp as [Hp _]. exfalso. assert (Ht : existsb (fun p => otruthy (p_when p)) (c_positionals c) = true); [| congruence].
      apply existsb_exists. exists p. split; [exact Hp |]. rewrite E. destruct e; [congruence | reflexivity]. }
    apply inr_inj in Hown. unfold positionals_without_when in Hown. subst own.
    destruct (group_by_In l) as [G1 G2]. split.
    + intros b Hb Hr. apply in_map_iff in Hb as ([k g] & <- & Hg). cbn [snd]. apply andb_prop in Hr as [Hr _]. cbn [fst] in Hr.
      apply existsb_exists in Hr as (t & Ht & Hr). apply in_map_iff in Ht as (p & <- & Hp). destruct (G1 k g p Hg Hp) as [Hpl Hk].
      exists p. split; [exact Hpl |]. split; [now apply test_offered |]. split; [now apply Hrd | now symmetry].
    + intros p Hp Ho _. destruct (G2 p Hp) as (g & Hg & Hpg). eexists. split; [apply in_map_iff; exists (pcode p, g); split; [reflexivity | exact Hg] |].
      unfold reached. cbn [fst snd]. rewrite andb_true_r. apply existsb_exists. exists (positional_test ps p). split; [now apply in_map | now apply test_offered].
Qed.

Theorem positionals_run blocks :
  generate_positionals ere f1 f2 f3 pcode choices_code ps c = Ok blocks ->
  (run_positionals truth blocks st = nothing /\
   (forall p, ordinary p -> positional_offered before ps c p -> ~ ready p) /\ (c_subcommands c <> None -> ~ subcommands_offered before ps c)) \/
  (exists p, ordinary p /\ positional_offered before ps c p /\ ready p /\
   run_positionals truth blocks st = ([Run (pcode p) (st_cur st) []], true)) \/
  (c_subcommands c <> None /\ subcommands_offered before ps c /\
   run_positionals truth blocks st = ([Run (choices_code (get_choices c)) (st_cur st) []], true)).
Proof.
  intros H. destruct (blocks_spec blocks H) as (B1 & B2 & B3). unfold run_positionals. change (fun b : list count_test * (option str * str) => _) with reached.
  set (f := find _ _). assert (Ef : find reached blocks = f) by reflexivity. clearbody f. destruct f as [[tests [cond complete]] |].
  - right. apply find_some in Ef as [Hin Hr]. destruct (B1 _ Hin Hr) as [(p & Hp & Ho & Hrd & E) | (Hs & Ho & E)]; cbn [snd] in E; subst complete.
    + left. exists p. auto.
    + right. auto.
  - left. split; [reflexivity |]. split.
    + intros p Hp Ho Hrd. destruct (B2 p Hp Ho Hrd) as (b & Hb & Hr). rewrite (find_none _ _ Ef b Hb) in Hr. discriminate.
    + intros Hs Ho. destruct (B3 Hs Ho) as (b & Hb & Hr). rewrite (find_none _ _ Ef b Hb) in Hr. discriminate.
Qed.

Theorem choices_names x : In x (get_choices c) <-> exists sub, In sub (subs c) /\ In x (c_prog sub :: c_aliases sub).
Proof. unfold get_choices. rewrite (uniq_In str_eqb (list_eq_dec N.eq_dec) str_eqb_spec), in_flat_map. reflexivity. Qed.
End Positionals.
