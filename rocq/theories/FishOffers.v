(** * Proofs: the conditions of the definitions say what is to be offered. *)
From Coq Require Import Permutation.
From Verif Require Import Base Value Dict Abbrev AbbrevProofs Algo AlgoProofs StrUtils Shell SpecShell ShellProofs ShellParser When SpecWhen WhenProofs WhenTests
  Cli SpecCli CliProofs CliMore SpecParser ParserProofs ParserTables
  FishUtils SpecFish FishProofs FishConditions FishEval FishCommand FishRuntime SpecOffered SpecFishOffers FishOffered.
Open Scope list_scope.

Lemma holds_true matches positionals given (truth : wobj -> bool) :
  (forall t, (forall o, In o (term_tests t) -> truth o = true <-> test_holds matches positionals given o) ->
     term_true truth t = true <-> term_holds matches positionals given t) /\
  (forall l, (forall o, In o (conds_tests l) -> truth o = true <-> test_holds matches positionals given o) ->
     conds_true truth l = true <-> cond_holds matches positionals given l).
Proof.
  apply term_conds_ind.
  - intros o H. apply H. now left.
  - intros t IH H. cbn [term_true term_holds]. rewrite negb_true_iff. rewrite <- not_true_iff_false. rewrite IH by exact H. reflexivity.
  - intros l IH H. apply IH, H.
  - intros t IH H. apply IH, H.
  - intros l IHl t IHt H. cbn [conds_true cond_holds]. rewrite andb_true_iff, IHl, IHt; [reflexivity | |]; intros o Ho; apply H; cbn [conds_tests]; apply in_or_app; tauto.
  - intros l IHl t IHt H. cbn [conds_true cond_holds]. rewrite orb_true_iff, IHl, IHt; [reflexivity | |]; intros o Ho; apply H; cbn [conds_tests]; apply in_or_app; tauto.
Qed.

(** the first name of a command *)
Lemma abbreviations_first m words w l : w <> [] -> m <= List.length w -> get_abbreviations (general_abbreviations m words) w = Ok l ->
  exists l', l = w :: l'.
Proof.
  rewrite get_abbreviations_eq. destruct (mems w words); [| discriminate]. intros Hw Hm H. injection H as <-.
  destruct w as [| c w]; [congruence |]. cbn [List.length down_range].
  rewrite (proj2 (Nat.ltb_ge _ _)) by exact Hm. cbn [map filter].
  assert (E : firstn (S (List.length w)) (c :: w) = c :: w) by (apply (firstn_all (c :: w))). rewrite E.
  unfold abbrev_ok. rewrite str_eqb_refl, orb_true_r. eexists. reflexivity.
Qed.
Lemma variations_first c p l : c_prog c <> [] -> ~ In (c_prog c) (c_aliases c) -> get_all_command_variations c (Some p) = Ok l ->
  fish_contains l = false.
Proof.
  intros Hp Ha H. unfold get_all_command_variations in H.
  assert (K : l = c_prog c :: c_aliases c \/ exists a, get_abbreviations (command_abbreviations (map c_prog (subs p))) (c_prog c) = Ok a /\ l = a ++ c_aliases c).
  { destruct (c_abbrev_cmds c); [right | left; now injection H | right]; apply bind_ok in H as (a & Ea & H); injection H as <-; eauto. }
  destruct K as [-> | (a & Ea & ->)].
  - cbn. destruct (mems (c_prog c) (c_aliases c)) eqn:E; [now apply mems_In in E | reflexivity].
  - unfold command_abbreviations in Ea.
    assert (Hin : In (c_prog c) (map c_prog (subs p))) by (rewrite get_abbreviations_eq in Ea; destruct (mems (c_prog c) (map c_prog (subs p))) eqn:E; [now apply mems_In | discriminate]).
    destruct (proj1 (abbreviations_total 1 (map c_prog (subs p)) (c_prog c)) Hin) as (l & El & Hn). rewrite Ea in El. injection El as <-.
    destruct (abbreviations_first 1 _ _ _ Hp ltac:(destruct (c_prog c); [congruence | cbn; lia]) Ea) as [a' ->].
    cbn [app fish_contains]. destruct (mems (c_prog c) (a' ++ c_aliases c)) eqn:E; [| reflexivity]. apply mems_In, in_app_or in E as [E | E]; [| contradiction].
    inversion Hn; subst. contradiction.
Qed.

Lemma optimized_perm l : Permutation (optimized_conditions l) l.
Proof.
  unfold optimized_conditions. induction l as [| c l IH]; [constructor |]. cbn [filter].
  destruct c as [c | os | os | op n | n vs]; cbn [is_num is_contains is_has orb negb].
  - rewrite !app_assoc. rewrite <- Permutation_middle. constructor. rewrite <- !app_assoc. exact IH.
  - cbn [app]. etransitivity; [apply Permutation_app_head; symmetry; apply Permutation_middle |].
    etransitivity; [symmetry; apply Permutation_middle |]. constructor. exact IH.
  - cbn [app]. etransitivity; [apply Permutation_app_head; symmetry; apply Permutation_middle |].
    etransitivity; [symmetry; apply Permutation_middle |]. constructor. exact IH.
  - cbn [app]. constructor. exact IH.
  - cbn [app]. etransitivity; [symmetry; apply Permutation_middle |]. constructor. exact IH.
Qed.

Lemma located_cons_inv root p ps c : located root (p :: ps) c -> located root ps p /\ In c (subs p).
Proof. intros H. inversion H; subst. auto. Qed.
Lemma located_parent root ps c : located root ps c -> forall c', In c' (c :: ps) -> exists qs, located root qs c'.
Proof.
  induction 1 as [| ps c sub Hl IH Hi]; intros c' [<- | H].
  - exists []. constructor.
  - destruct H.
  - exists (c :: ps). now constructor.
  - now apply IH.
Qed.
Lemma opt_eqb_strings a b : opt_eqb a b = true -> o_strings a = o_strings b.
Proof. intros H. apply opt_eqb_eq in H. apply (f_equal o_strings) in H. exact H. Qed.
Lemma eqb_iff_true (b : bool) (Q : Prop) : (b = true <-> Q) -> (b = false <-> ~ Q).
Proof. intros H. rewrite <- H. now destruct b. Qed.
Lemma sum_cons c ps : taken (c :: ps) = (consumed c + taken ps)%Z. Proof. reflexivity. Qed.

Section Offers.
Variable matches : str -> bool -> str -> bool.
Variable incomplete : list str -> bool.
Variable q : query.
Variable e : env.
Hypothesis He : good_names e.
Variable root : cmd.
Hypothesis Hb : built root.
Notation truth := (fish_truth matches incomplete q e).
Notation P := (q_positionals q).
Notation G := (q_options q).
Notation holds := (cond_true truth e).

Lemma cond_not_given l : (forall x, In x l -> is_valid_option_string x = true) -> holds (FNot (FHasOption l)) = true <-> silent G l.
Proof.
  intros H. cbn [cond_true]. rewrite negb_true_iff. change truth with (T matches incomplete q e). rewrite (truth_of matches incomplete q e He (s "has_option")) by (cbn; tauto).
  change (h_has_option incomplete q l = false <-> silent G l).
  rewrite (eqb_iff_true _ _ (has_option_given incomplete q l (fun x Hx => valid_not_incomplete x (H x Hx)))). unfold silent. split.
  - intros K x Hx Hg. apply K. eauto.
  - intros K (x & Hx & Hg). now apply (K x).
Qed.
Lemma cond_hidden l : holds (FHasHiddenOption l) = true <-> (exists x, In x l /\ is_given G x) \/ incomplete l = true.
Proof.
  cbn [cond_true]. change truth with (T matches incomplete q e). rewrite (truth_of matches incomplete q e He (s "has_option")) by (cbn; tauto).
  change (h_has_option incomplete q (s "WITH_INCOMPLETE" :: l) = true <-> (exists x, In x l /\ is_given G x) \/ incomplete l = true).
  unfold h_has_option. change (str_eqb (s "WITH_INCOMPLETE") (s "WITH_INCOMPLETE")) with true. cbv iota. rewrite orb_true_iff, existsb_exists. split.
  - intros [((x & v) & Hi & Hm) | K]; [| now right]. left. apply mems_In in Hm. exists x. split; [exact Hm | now exists v].
  - intros [(x & Hx & v & Hi) | K]; [| now right]. left. exists (x, v). split; [exact Hi | now apply mems_In].
Qed.
Lemma cond_number op n : In op operators -> holds (FPositionalNum op n) = true <-> compares (Z.of_nat (List.length P)) op n.
Proof.
  intros H. cbn [cond_true]. change truth with (T matches incomplete q e). rewrite (truth_of matches incomplete q e He (s "num_of_positionals")) by (cbn; tauto).
  change (h_num_of_positionals q [test_operator op; z_str n] = true <-> compares (Z.of_nat (List.length P)) op n).
  unfold h_num_of_positionals. rewrite py_int_str. now apply compare_op.
Qed.
Lemma compares_eq a b : compares a (s "==") b <-> a = b.
Proof.
  rewrite <- (compare_op a (s "==") b) by (cbn; tauto). change (fish_compare a (test_operator (s "==")) b) with (a =? b)%Z. apply Z.eqb_eq.
Qed.
Lemma compares_ge a b : compares a (s ">=") b <-> (b <= a)%Z.
Proof.
  rewrite <- (compare_op a (s ">=") b) by (cbn; tauto). change (fish_compare a (test_operator (s ">=")) b) with (a >=? b)%Z. apply Z.geb_le.
Qed.
Lemma cond_contains n values : (1 <= n)%Z -> fish_contains values = false ->
  holds (FPositionalContains n values) = true <-> exists w, nth_positional P n w /\ In w values.
Proof.
  intros Hn Hd. cbn [cond_true]. change truth with (T matches incomplete q e). rewrite (truth_of matches incomplete q e He (s "positional_contains")) by (cbn; tauto).
  change (h_positional_contains q (z_str n :: values) = true <-> exists w, nth_positional P n w /\ In w values).
  unfold h_positional_contains. rewrite z_str_not_i. cbv iota. rewrite py_int_str, element_nth by exact Hn. unfold nth_positional.
  destruct (nth_error P (Z.to_nat (n - 1))) as [w |]; cbn [app fish_contains].
  - rewrite mems_In. split; [intros K; exists w; auto |]. intros (w' & (_ & Ew) & Hw). now injection Ew as <-.
  - split; [congruence |]. intros (w & (_ & K) & _). discriminate.
Qed.

Lemma taken_nonneg ps c : located root ps c -> (0 <= taken ps)%Z.
Proof.
  intros H. clear -H. induction ps as [| p ps IH] in c, H |- *; [unfold taken, sum; cbn; lia |]. rewrite sum_cons.
  assert (0 <= consumed p)%Z.
  { unfold consumed. assert (forall l, 0 <= fold_right Z.max 0 l)%Z by (induction l as [| x l IHl]; cbn [fold_right]; lia). specialize (H0 (map p_number (c_positionals p))). lia. }
  destruct (located_cons_inv root p ps c H) as [Hp _]. specialize (IH p Hp). lia.
Qed.
Lemma selector_num ps c : located root ps c -> positional_num ps (subcommands_number c) = taken (c :: ps).
Proof. intros H. unfold positional_num. apply (selector_number root ps c H). Qed.

Lemma contains_selected : forall ps c l, located root ps c -> sound_names ps c -> positional_contains ps c = Ok l ->
  (forall x, In x l -> holds x = true) <-> selected P ps c.
Proof.
  induction ps as [| p ps IH]; intros c l Hl Hn H; cbn [positional_contains selected] in *.
  - injection H as <-. split; [auto | intros _ x []].
  - apply bind_ok in H as (conds & Hc & H). apply bind_ok in H as (cmds & Hv & H). injection H as <-.
    destruct (located_cons_inv root p ps c Hl) as [Hp Hs]. destruct Hn as (Hne & Hna & _ & Hnp). specialize (IH p conds Hp Hnp Hc).
    rewrite (selector_num ps p Hp).
    assert (H1 : (1 <= taken (p :: ps))%Z).
    { rewrite sum_cons. pose proof (taken_nonneg ps p Hp). unfold consumed. assert (forall l, 0 <= fold_right Z.max 0 l)%Z by (clear; induction l as [| x l IHl]; cbn [fold_right]; lia).
      specialize (H0 (map p_number (c_positionals p))). lia. }
    pose proof (cond_contains _ cmds H1 (variations_first c p cmds Hne Hna Hv)) as Hcc. pose proof (variations_names p c cmds Hs Hne Hv) as Hnm. split.
    + intros K. split; [apply IH; intros x Hx; apply K, in_or_app; now left |].
      assert (K' : holds (FPositionalContains (taken (p :: ps)) cmds) = true) by (apply K, in_or_app; right; now left). clear K. rename K' into K. apply Hcc in K as (w & Hw & Hi). exists w. split; [exact Hw | now apply Hnm].
    + intros [K1 (w & Hw & Hi)] x Hx. apply in_app_or in Hx as [Hx | [<- | []]]; [now apply IH |]. apply Hcc. exists w. split; [exact Hw | now apply Hnm].
Qed.

(** ** Options *)
Section Generator.
Variable ere : str -> bool.
Variable completer : list value -> list str.
Lemma selected_length ps c : located root ps c -> selected P ps c -> (taken ps <= Z.of_nat (List.length P))%Z.
Proof.
  destruct ps as [| p ps]; [unfold taken, sum; cbn; lia |]. intros Hl [_ (w & (H1 & H2) & _)].
  assert (K : Z.to_nat (taken (p :: ps) - 1) < List.length P) by (apply nth_error_Some; congruence). lia.
Qed.
Lemma option_conditions ps c o d : located root ps c -> sound_names ps c -> In o (c_options c) -> complete_option ere completer ps c o = Ok d ->
  (c_subcommands c <> None -> ~ passes_on c -> c_positionals c = []) ->
  (forall x, In x (d_conditions d) -> holds x = true) <->
  option_offered P G ps c o /\
  (o_hidden o = true -> (exists x, In x (o_strings o) /\ is_given G x) \/ incomplete (o_strings o) = true).
Proof.
  intros Hl Hn Ho H Hpos. unfold complete_option in H. apply bind_ok in H as (confl & Hcf & H). apply bind_ok in H as (contains & Hct & H). apply bind_ok in H as (w & Hw & H).
  injection H as <-. cbn [d_conditions].
  pose proof (contains_selected ps c contains Hl Hn Hct) as Hsel.
  destruct (conflicting_spec (c_options c) o Ho) as (r & Er & Hr1 & Hr2). rewrite Hcf in Er. injection Er as <-.
  set (not_has := flat_map o_strings (get_final_options ps c) ++ flat_map o_strings confl ++ (if xtrue (o_repeatable o) then [] else o_strings o)).
  assert (Hval : forall x, In x (uniq str_eqb not_has) -> is_valid_option_string x = true).
  { intros x Hx. apply (proj1 (uniq_In str_eqb (list_eq_dec N.eq_dec) str_eqb_spec _ _)) in Hx.
    assert (K : exists qs c' f, located root qs c' /\ In f (c_options c') /\ In x (o_strings f)).
    { unfold not_has in Hx. rewrite !in_app_iff in Hx. destruct Hx as [Hx | [Hx | Hx]].
      - apply in_flat_map in Hx as (f & Hf & Hx). unfold get_final_options in Hf. apply in_flat_map in Hf as (c' & Hc' & Hf). apply filter_In in Hf as [Hf _].
        destruct (located_parent root ps c Hl c' Hc') as [qs Hq]. eauto 6.
      - apply in_flat_map in Hx as (f & Hf & Hx). apply Hr1 in Hf as [Hf _]. eauto 6.
      - destruct (xtrue (o_repeatable o)); [destruct Hx | eauto 6]. }
    destruct K as (qs & c' & f & Hq & Hf & Hx'). eapply located_option_valid; eassumption. }
  assert (Hnh : (forall x, In x (match not_has with [] => [] | _ => [FNot (FHasOption (uniq str_eqb not_has))] end) -> holds x = true) <-> silent G not_has).
  { assert (E : silent G (uniq str_eqb not_has) <-> silent G not_has) by (unfold silent; split; intros K x Hx; apply K; now apply (uniq_In str_eqb (list_eq_dec N.eq_dec) str_eqb_spec)).
    destruct not_has as [| y l] eqn:Eq; [split; [intros _ x [] | intros _ x []] |]. rewrite <- E, <- (cond_not_given _ Hval). split; [intros K; apply K; now left |].
    intros K x [<- | []]. exact K. }
  assert (Hsil : silent G not_has <->
     (forall c' f, In c' (c :: ps) -> In f (c_options c') -> o_final f = true -> silent G (o_strings f)) /\
     (forall p, In p (c_options c) -> opt_eqb p o = false -> share_group o p -> silent G (o_strings p)) /\
     (o_repeatable o = XFalse -> silent G (o_strings o))).
  { unfold not_has. split.
    - intros K. repeat split.
      + intros c' f Hc Hf Hfin x Hx. apply K. rewrite !in_app_iff. left. apply in_flat_map. exists f. split; [| exact Hx].
        unfold get_final_options. apply in_flat_map. exists c'. split; [exact Hc |]. now apply filter_In.
      + intros p Hp Hne Hsg x Hx. destruct (Hr2 p Hp Hne Hsg) as (y & Hy & Ey). apply K. rewrite !in_app_iff. right. left. apply in_flat_map. exists y. split; [exact Hy |].
        apply opt_eqb_strings in Ey. now rewrite Ey.
      + intros E x Hx. apply K. rewrite !in_app_iff. right. right. rewrite E. exact Hx.
    - intros (K1 & K2 & K3) x Hx. rewrite !in_app_iff in Hx. destruct Hx as [Hx | [Hx | Hx]].
      + apply in_flat_map in Hx as (f & Hf & Hx). unfold get_final_options in Hf. apply in_flat_map in Hf as (c' & Hc' & Hf). apply filter_In in Hf as [Hf Hfin]. now apply (K1 c' f).
      + apply in_flat_map in Hx as (f & Hf & Hx). apply Hr1 in Hf as (Hf & Hne & Hsg). now apply (K2 f).
      + destruct (o_repeatable o); cbn in Hx; try destruct Hx; now apply K3. }
  assert (Hnum : (forall x, In x (if negb (xtrue (c_inherit c)) && is_some (c_subcommands c) then [FPositionalNum (s "==") (positional_num ps (subcommands_number c) - 1)] else []) -> holds x = true) <->
     (c_subcommands c <> None -> ~ passes_on c -> Z.of_nat (List.length P) = (taken (c :: ps) - 1)%Z)).
  { rewrite (selector_num ps c Hl). unfold passes_on. destruct (c_subcommands c) as [l |]; [| rewrite andb_false_r; split; [congruence | intros _ x []]].
    cbn [is_some]. rewrite andb_true_r. destruct (c_inherit c); cbn [xtrue xbool_eqb negb].
    - split; [intros _ _ K; exfalso; apply K; discriminate | intros _ x []].
    - rewrite <- (compares_eq (Z.of_nat (List.length P))), <- cond_number by (cbn; tauto). split; [intros K _ _; apply K; now left |]. intros K x [<- | []]. apply K; [discriminate |]. intros Q. now apply Q.
    - split; [intros _ _ K; exfalso; apply K; discriminate | intros _ x []]. }
  assert (Hhid : (forall x, In x (if o_hidden o then [FHasHiddenOption (o_strings o)] else []) -> holds x = true) <->
     (o_hidden o = true -> (exists x, In x (o_strings o) /\ is_given G x) \/ incomplete (o_strings o) = true)).
  { destruct (o_hidden o); [| split; [discriminate | intros _ x []]]. rewrite <- cond_hidden. split; [intros K _; apply K; now left |]. intros K x [<- | []]. now apply K. }
  assert (Hlt : (forall x, In x contains -> holds x = true) ->
     ((c_subcommands c <> None -> ~ passes_on c -> Z.of_nat (List.length P) = (taken (c :: ps) - 1)%Z) <->
      (c_subcommands c <> None -> ~ passes_on c -> (Z.of_nat (List.length P) < taken (c :: ps))%Z))).
  { intros K. apply Hsel, (selected_length ps c Hl) in K. split; intros Q H1 H2; specialize (Q H1 H2); specialize (Hpos H1 H2);
      rewrite sum_cons in *; unfold consumed in *; rewrite Hpos in *; cbn [map fold_right] in *; destruct (c_subcommands c); try congruence; lia. }
  unfold option_offered. fold not_has.
  assert (Happ : forall (a b : list fcond) , (forall x, In x (a ++ b) -> holds x = true) <-> (forall x, In x a -> holds x = true) /\ (forall x, In x b -> holds x = true)).
  { intros a b. split; [intros K; split; intros x Hx; apply K, in_or_app; tauto |]. intros [K1 K2] x Hx. apply in_app_or in Hx as [Hx | Hx]; auto. }
  rewrite !Happ, Hnh, Hsil, <- Hsel, Hnum, Hhid. split.
  - intros ((K1 & K2 & K3) & K4 & K5 & K6). split; [| exact K4]. exact (conj K1 (conj K2 (conj K3 (conj (proj1 (Hlt K6) K5) K6)))).
  - intros ((K1 & K2 & K3 & K5 & K6) & K4). exact (conj (conj K1 (conj K2 K3)) (conj K4 (conj (proj2 (Hlt K6) K5) K6))).
Qed.

(** ** Positional arguments and sub-commands *)
Lemma positional_conditions ps c p d : located root ps c -> sound_names ps c -> complete_positional ere completer ps c p = Ok d ->
  (forall x, In x (d_conditions d) -> holds x = true) <-> positional_offered P ps c p.
Proof.
  intros Hl Hn H. unfold complete_positional in H. apply bind_ok in H as (contains & Hct & H). apply bind_ok in H as (w & Hw & H).
  injection H as <-. cbn [d_conditions]. unfold positional_num. rewrite (positional_index_eq root ps c _ Hl). unfold positional_offered.
  rewrite <- (contains_selected ps c contains Hl Hn Hct). fold (taken ps). 
  replace (p_number p - 1 + taken ps + 1 - 1)%Z with (taken ps + p_number p - 1)%Z by lia.
  assert (E : holds (FPositionalNum (if p_repeatable p then s ">=" else s "==") (taken ps + p_number p - 1)) = true <->
     (if p_repeatable p then (taken ps + p_number p - 1 <= Z.of_nat (List.length P))%Z else Z.of_nat (List.length P) = (taken ps + p_number p - 1)%Z)).
  { rewrite cond_number by (destruct (p_repeatable p); cbn; tauto). destruct (p_repeatable p); [apply compares_ge | apply compares_eq]. }
  split.
  - intros K. split; [apply E, K, in_or_app; right; now left | intros x Hx; apply K, in_or_app; now left].
  - intros [K1 K2] x Hx. apply in_app_or in Hx as [Hx | [<- | []]]; [now apply K2 | now apply E].
Qed.
Lemma subcommands_conditions ps c d : located root ps c -> sound_names ps c -> complete_subcommands completer ps c = Ok d ->
  (forall x, In x (d_conditions d) -> holds x = true) <-> subcommands_offered P ps c.
Proof.
  intros Hl Hn H. unfold complete_subcommands in H. apply bind_ok in H as (contains & Hct & H).
  injection H as <-. cbn [d_conditions]. rewrite (selector_num ps c Hl). unfold subcommands_offered.
  rewrite <- (contains_selected ps c contains Hl Hn Hct), <- compares_eq, <- cond_number by (cbn; tauto). split.
  - intros K. split; [apply K; now left | intros x Hx; apply K; now right].
  - intros [K1 K2] x [<- | Hx]; [exact K1 | now apply K2].
Qed.

(** ** From texts to truth *)
Definition all_hold (texts : list str) : Prop := forall x, In x texts -> fish_eval truth x = Some true.
Lemma texts_hold d texts cond : (forall x, In x (d_conditions d) -> clean (cond_strings x)) ->
  match d_when d with Some (t :: ts) => exists l, cond = Some l /\ t :: ts = map wtok_of (conds_syms l) /\
      (forall o, In (STest o) (conds_syms l) -> sound_test o /\ clean (test_arguments o)) | _ => cond = None end ->
  Forall2 (fun x v => fish_line e x = Some [v]) (get_conditions (d_conditions d) (d_when d)) texts ->
  all_hold (helper e (s "P") :: texts) <-> (forall x, In x (d_conditions d) -> holds x = true) /\ when_holds matches q cond.
Proof.
  intros Hcl Hwh Hf. unfold get_conditions in Hf. apply Forall2_app_inv_l in Hf as (t1 & t2 & H1 & H2 & ->).
  assert (E1 : all_hold t1 <-> forall x, In x (d_conditions d) -> holds x = true).
  { assert (Hcl' : forall x, In x (optimized_conditions (d_conditions d)) -> clean (cond_strings x)).
    { intros x Hx. apply Hcl. now apply (Permutation_in _ (optimized_perm _)). }
    assert (E : all_hold t1 <-> forall x, In x (optimized_conditions (d_conditions d)) -> holds x = true).
    { clear Hcl. revert t1 H1. induction (optimized_conditions (d_conditions d)) as [| c l IH]; intros t1 H1; cbn [map] in H1; inversion H1 as [| ? v ? t1' Hv Hr]; subst.
      - split; [intros _ x [] | intros _ x []].
      - destruct (cond_eval truth e He c (Hcl' c (or_introl eq_refl))) as (text & Ht & Ev). rewrite Hv in Ht. injection Ht as <-.
        specialize (IH (fun x Hx => Hcl' x (or_intror Hx)) t1' Hr). split.
        + intros K x [<- | Hx]; [specialize (K v (or_introl eq_refl)); congruence |]. apply IH; [| exact Hx]. intros y Hy. apply K. now right.
        + intros K y [<- | Hy]; [rewrite Ev, K by (now left); reflexivity |]. apply IH; [| exact Hy]. intros x Hx. apply K. now right. }
    rewrite E. split; intros K x Hx; apply K; [now apply (Permutation_in _ (Permutation_sym (optimized_perm _))) | now apply (Permutation_in _ (optimized_perm _))]. }
  assert (E2 : all_hold t2 <-> when_holds matches q cond).
  { destruct (d_when d) as [[| t ts] |].
    - subst cond. inversion H2; subst. split; [intros _; exact I | intros _ x []].
    - destruct Hwh as (l & -> & Ew & Hl). inversion H2 as [| ? v ? t2' Hv Hr]; subst. inversion Hr; subst. rewrite Ew in Hv.
      destruct (when_means truth e He l (fun o Ho => proj2 (Hl o Ho))) as (text & Ht & Ev). rewrite Hv in Ht. injection Ht as <-.
      assert (E : conds_true (fun o => truth (test_words e o)) l = true <-> cond_holds matches P G l).
      { apply (proj2 (holds_true matches P G (fun o => truth (test_words e o)))). intros o Ho.
        apply (test_truth matches incomplete q e He o). apply Hl. apply tests_in_syms. exact Ho. }
      cbn [when_holds]. rewrite <- E. split; [intros K; specialize (K v (or_introl eq_refl)); congruence |]. intros K x [<- | []]. congruence.
    - subst cond. inversion H2; subst. split; [intros _; exact I | intros _ x []]. }
  rewrite <- E1, <- E2. unfold all_hold. split.
  - intros K. split; intros x Hx; apply K; right; apply in_or_app; tauto.
  - intros [K1 K2] x [<- | Hx].
    + rewrite prepare_eval by exact He. change truth with (T matches incomplete q e). rewrite (truth_of matches incomplete q e He (s "P") []) by (cbn; tauto). reflexivity.
    + apply in_app_or in Hx as [Hx | Hx]; auto.
Qed.
End Generator.
End Offers.
