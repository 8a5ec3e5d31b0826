(** * Proofs: what the [complete] commands of fish scripts say. *)
From Coq Require Import Permutation.
From Verif Require Import Base Value Algo AlgoProofs StrUtils Shell SpecShell ShellProofs ShellParser When SpecWhen WhenProofs WhenTests
  Cli CliProofs ParserProofs FishUtils SpecFish FishProofs FishConditions SpecFishOffers FishEval.
Open Scope list_scope.

(** ** Quoted words *)

Definition xmode_of (m : fmode) : xmode :=
  match m with FUnquoted => XUnquoted | FInSQ => XInSQ | FInSQEsc => XInSQEsc | FInDQ => XInDQ | FInDQEsc => XInDQEsc end.
Lemma expand_read e x : forall m w ws, fish_read m w x = Some ws -> fish_expand e (xmode_of m) w x = Some ws.
Proof.
  induction x as [| c x IH]; intros m w ws H; [destruct m; cbn in *; congruence |].
  destruct m; cbn [fish_read fish_expand fish_char xmode_of] in *.
  - destruct (N.eqb c SQ); [now apply (IH FInSQ) |]. destruct (N.eqb c DQ); [now apply (IH FInDQ) |].
    destruct (N.eqb c SP || N.eqb c TAB).
    { apply emit_some in H as (ws' & H & ->). apply (IH FUnquoted) in H. cbn [xmode_of] in H. rewrite H. destruct w; reflexivity. }
    destruct (N.eqb_spec c DOLLAR) as [-> | _]; [discriminate H |]. destruct (fish_special c); [discriminate |]. now apply (IH FUnquoted).
  - destruct (N.eqb c SQ); [now apply (IH FUnquoted) |]. destruct (N.eqb c BS); [now apply (IH FInSQEsc) | now apply (IH FInSQ)].
  - destruct (memc c [SQ; BS]); now apply (IH FInSQ).
  - destruct (N.eqb c DQ); [now apply (IH FUnquoted) |]. destruct (N.eqb c BS); [now apply (IH FInDQEsc) |].
    destruct (N.eqb c DOLLAR); [discriminate |]. now apply (IH FInDQ).
  - destruct (N.eqb c LF); [now apply (IH FInDQ) |]. destruct (memc c [DOLLAR; DQ; BS]); now apply (IH FInDQ).
Qed.
Lemma line_quote e x : ~ In BS x -> ~ In BTICK x -> fish_line e (quote x) = Some [x].
Proof.
  intros H1 H2. apply (expand_read e (quote x) FUnquoted None). rewrite <- (app_nil_r (quote x)). now rewrite fish_read_quote.
Qed.

(** ** Flags *)

Definition flag_names : list str := [s "r"; s "f"; s "F"; s "x"; s "k"].
Definition flag_list (l : list str) : Prop := forall x, In x l -> In x flag_names.
Lemma flag_single x : In x flag_names -> exists c, x = [c] /\ memc c (s "rfFxk") = true.
Proof. intros [<- | [<- | [<- | [<- | [<- | []]]]]]; eexists; (split; [reflexivity | reflexivity]). Qed.
Lemma memc_concat c l : flag_list l -> memc c (concat l) = mems [c] l.
Proof.
  intros H. induction l as [| x l IH]; [reflexivity |]. cbn [concat]. destruct (flag_single x (H x (or_introl eq_refl))) as (d & -> & _).
  change (N.eqb c d || memc c (concat l) = str_eqb [c] [d] || mems [c] l). rewrite IH by (intros y Hy; apply H; now right). f_equal. cbn [str_eqb]. now rewrite andb_true_r.
Qed.
Lemma mems_sort x l : mems x (sort_strs l) = mems x l.
Proof.
  destruct (mems x l) eqn:E.
  - apply mems_In. apply mems_In in E. now apply (Permutation_in _ (Permutation_sym (sort_strs_perm l))).
  - destruct (mems x (sort_strs l)) eqn:E'; [| reflexivity]. apply mems_In in E'. apply (Permutation_in _ (sort_strs_perm l)) in E'. apply mems_In in E'. congruence.
Qed.
Lemma flag_list_sort l : flag_list l -> flag_list (sort_strs l).
Proof. intros H x Hx. apply H. now apply (Permutation_in _ (sort_strs_perm l)). Qed.
Lemma mems_set_add x y l : mems x (set_add y l) = mems x l || str_eqb x y.
Proof.
  unfold set_add. destruct (mems y l) eqn:E.
  - destruct (str_eqb_spec x y) as [-> | _]; [now rewrite E | now rewrite orb_false_r].
  - unfold mems. rewrite existsb_app. cbn [existsb]. now rewrite orb_false_r.
Qed.
Lemma mems_discard x y l : mems x (set_discard y l) = mems x l && negb (str_eqb x y).
Proof.
  unfold set_discard, mems. induction l as [| z l IH]; [reflexivity |]. cbn [filter existsb].
  destruct (str_eqb_spec z y) as [-> | Hz]; cbn [negb]; [rewrite IH; destruct (str_eqb_spec x y) as [-> | Hx]; [cbn; now rewrite !andb_false_r | reflexivity] |].
  cbn [existsb]. rewrite IH. destruct (str_eqb_spec x z) as [-> | Hx]; [| reflexivity]. cbn [orb]. symmetry. apply negb_true_iff. now apply str_eqb_neq.
Qed.
Lemma flag_list_add x l : In x flag_names -> flag_list l -> flag_list (set_add x l).
Proof. intros Hx H. unfold set_add. destruct (mems x l); [exact H |]. intros y Hy. apply in_app_or in Hy as [Hy | [<- | []]]; auto. Qed.
Lemma flag_list_discard x l : flag_list l -> flag_list (set_discard x l).
Proof. intros H y Hy. apply filter_In in Hy as [Hy _]. now apply H. Qed.
Lemma flags_of_list l : flag_list l -> flag_list (flags_of l).
Proof.
  intros H. unfold flags_of. assert (K : flag_list (if mems (s "r") l && mems (s "f") l then set_add (s "x") l else l)).
  { destruct (mems (s "r") l && mems (s "f") l); [apply flag_list_add; [cbn; tauto | exact H] | exact H]. }
  cbv zeta. destruct (mems (s "x") _); [| exact K]. now apply flag_list_discard, flag_list_discard.
Qed.
Lemma flags_of_meaning l : flag_list l -> mems (s "x") l = false ->
  let f := concat (sort_strs (flags_of l)) in
  requires f = mems (s "r") l /\ no_files f = mems (s "f") l /\ force_files f = mems (s "F") l /\ keep_order f = mems (s "k") l.
Proof.
  intros H Hx f. unfold requires, no_files, force_files, keep_order, f.
  rewrite !memc_concat by (now apply flag_list_sort, flags_of_list). rewrite !mems_sort.
  change [114%N] with (s "r"). change [120%N] with (s "x"). change [102%N] with (s "f"). change [70%N] with (s "F"). change [107%N] with (s "k").
  unfold flags_of. destruct (mems (s "r") l) eqn:Er, (mems (s "f") l) eqn:Ef; cbn [andb]; cbv zeta;
    rewrite ?mems_set_add, ?Hx; cbn [orb]; rewrite ?str_eqb_refl; cbv iota; rewrite ?mems_discard, ?mems_set_add, ?Er, ?Ef, ?Hx; repeat split;
    repeat (match goal with |- context [str_eqb (s ?a) (s ?b)] => let r := eval vm_compute in (str_eqb (s a) (s b)) in change (str_eqb (s a) (s b)) with r end);
    cbn [negb andb orb]; rewrite ?andb_true_r, ?orb_false_r; reflexivity.
Qed.

(** ** The arguments of [complete] *)

Lemma args_c x l : complete_args (s "-c" :: x :: l) =
  option_map (fun k => MkCompletion (x :: k_command k) (k_conditions k) (k_options k) (k_description k) (k_completions k) (k_flags k)) (complete_args l).
Proof. reflexivity. Qed.
Lemma args_n x l : complete_args (s "-n" :: x :: l) =
  option_map (fun k => MkCompletion (k_command k) (x :: k_conditions k) (k_options k) (k_description k) (k_completions k) (k_flags k)) (complete_args l).
Proof. reflexivity. Qed.
Lemma args_s x l : complete_args (s "-s" :: x :: l) =
  option_map (fun k => MkCompletion (k_command k) (k_conditions k) ((s "-" ++ x) :: k_options k) (k_description k) (k_completions k) (k_flags k)) (complete_args l).
Proof. reflexivity. Qed.
Lemma args_o x l : complete_args (s "-o" :: x :: l) =
  option_map (fun k => MkCompletion (k_command k) (k_conditions k) ((s "-" ++ x) :: k_options k) (k_description k) (k_completions k) (k_flags k)) (complete_args l).
Proof. reflexivity. Qed.
Lemma args_l x l : complete_args (s "-l" :: x :: l) =
  option_map (fun k => MkCompletion (k_command k) (k_conditions k) ((s "--" ++ x) :: k_options k) (k_description k) (k_completions k) (k_flags k)) (complete_args l).
Proof. reflexivity. Qed.
Lemma args_d x l : complete_args (s "-d" :: x :: l) =
  option_map (fun k => MkCompletion (k_command k) (k_conditions k) (k_options k) (x :: k_description k) (k_completions k) (k_flags k)) (complete_args l).
Proof. reflexivity. Qed.
Lemma args_a x l : complete_args (s "-a" :: x :: l) =
  option_map (fun k => MkCompletion (k_command k) (k_conditions k) (k_options k) (k_description k) (x :: k_completions k) (k_flags k)) (complete_args l).
Proof. reflexivity. Qed.
Definition with_flags (f : str) (k : completion) : completion :=
  MkCompletion (k_command k) (k_conditions k) (k_options k) (k_description k) (k_completions k) (f ++ k_flags k).
Lemma args_flags f l : f <> [] -> forallb (fun d => memc d (s "rfFxk")) f = true ->
  complete_args ((s "-" ++ f) :: l) = option_map (with_flags f) (complete_args l).
Proof.
  intros Hn Hf. destruct f as [| d f]; [congruence |].
  assert (Hd : memc d (s "rfFxk") = true) by (cbn [forallb] in Hf; now apply andb_true_iff in Hf as [Hf _]).
  assert (E : forall c, memc c (s "rfFxk") = false -> str_eqb (s "-" ++ d :: f) [DASH; c] = false).
  { intros c Hc. apply str_eqb_neq. intros K. injection K as -> ->. congruence. }
  destruct l as [| x l].
  - cbn [complete_args]. change (s "-" ++ d :: f) with (DASH :: d :: f). change (N.eqb DASH DASH) with true. cbn [andb]. rewrite Hf.
    unfold with_flags, nothing. cbn [option_map k_command k_conditions k_options k_description k_completions k_flags]. now rewrite app_nil_r.
  - cbn [complete_args]. change (s "-c") with [DASH; 99%N]. change (s "-n") with [DASH; 110%N]. change (s "-s") with [DASH; 115%N].
    change (s "-o") with [DASH; 111%N]. change (s "-l") with [DASH; 108%N]. change (s "-d") with [DASH; 100%N]. change (s "-a") with [DASH; 97%N].
    rewrite !E by reflexivity. cbn [orb]. change (s "-" ++ d :: f) with (DASH :: d :: f). change (N.eqb DASH DASH) with true. cbn [andb]. rewrite Hf. reflexivity.
Qed.

(** ** The words of a command *)

Definition f_string (x : fstring) : str := let 'FString x _ := x in x.
Definition tail_values (c : complete_command) : list str :=
  flat_map (fun x => [s "-s"; f_string x]) (cc_short c)
  ++ flat_map (fun x => [s "-l"; f_string x]) (cc_long c)
  ++ flat_map (fun x => [s "-o"; f_string x]) (cc_old c)
  ++ match cc_description c with Some x => [s "-d"; f_string x] | None => [] end
  ++ match flags_of (cc_flags c) with [] => [] | _ => [s "-" ++ concat (sort_strs (flags_of (cc_flags c)))] end
  ++ match cc_arguments c with Some x => [s "-a"; f_string x] | None => [] end.
(** quoted text without backslashes and backticks *)
Definition clean_f (x : fstring) : Prop := exists y, x = FString y false /\ ~ In BS y /\ ~ In BTICK y.
Definition clean_command (c : complete_command) : Prop :=
  (forall x, In x (cc_short c ++ cc_long c ++ cc_old c) -> clean_f x) /\
  (forall x, cc_description c = Some x -> clean_f x) /\ (forall x, cc_arguments c = Some x -> clean_f x) /\ flag_list (cc_flags c).
Lemma clean_word e x : clean_f x -> fish_line e (f_escape x) = Some [f_string x].
Proof. intros (y & -> & H1 & H2). now apply line_quote. Qed.
Lemma flag_word_line e l : flag_list l -> fish_line e (s "-" ++ concat l) = Some [s "-" ++ concat l].
Proof.
  intros H. assert (K : forallb is_safe (s "-" ++ concat l) = true).
  { rewrite forallb_app. apply andb_true_iff. split; [reflexivity |]. apply forallb_forall. intros c Hc. apply in_concat in Hc as (x & Hx & Hc).
    apply H in Hx. destruct Hx as [<- | [<- | [<- | [<- | [<- | []]]]]]; destruct Hc as [<- | []]; reflexivity. }
  apply (expand_read e _ FUnquoted None). rewrite <- (app_nil_r (s "-" ++ concat l)) at 1. rewrite fish_read_safe; [reflexivity | exact K | change (DASH :: concat l <> []); discriminate].
Qed.
Lemma tail_line e c : clean_command c -> Forall2 (fun x v => fish_line e x = Some [v]) (tail_words c) (tail_values c).
Proof.
  intros (H1 & H2 & H3 & H4). unfold tail_words, tail_values.
  assert (Ho : forall o l, fish_line e o = Some [o] -> (forall x, In x l -> clean_f x) ->
     Forall2 (fun x v => fish_line e x = Some [v]) (flat_map (with_option o) l) (flat_map (fun x => [o; f_string x]) l)).
  { intros o l Hl H. induction l as [| x l IH]; [constructor |]. cbn [flat_map with_option app]. constructor; [exact Hl |].
    constructor; [apply clean_word, H; now left |]. apply IH. intros y Hy. apply H. now right. }
  apply Forall2_app; [apply Ho; [reflexivity |]; intros; apply H1; rewrite !in_app_iff; tauto |].
  apply Forall2_app; [apply Ho; [reflexivity |]; intros; apply H1; rewrite !in_app_iff; tauto |].
  apply Forall2_app; [apply Ho; [reflexivity |]; intros; apply H1; rewrite !in_app_iff; tauto |].
  apply Forall2_app; [destruct (cc_description c) as [x |]; [| constructor]; repeat constructor; now apply clean_word, H2 |].
  apply Forall2_app; [| destruct (cc_arguments c) as [x |]; [| constructor]; repeat constructor; now apply clean_word, H3].
  cbv zeta. destruct (flags_of (cc_flags c)) eqn:E; [constructor |]. constructor; [| constructor]. rewrite <- E.
  apply flag_word_line. now apply flag_list_sort, flags_of_list.
Qed.

Lemma command_values e c conditions vs prog p : cc_command c = Some (FString (s "$prog") true) -> clean_command c ->
  e (s "prog") = Some prog -> e (s "P") = Some p -> Forall2 (fun x v => fish_line e x = Some [v]) conditions vs ->
  fish_line e (command_line c conditions) =
  Some (s "complete" :: s "-c" :: prog :: s "-n" :: p :: flat_map dash_n vs ++ tail_values c).
Proof.
  intros Hc Hcl Hprog Hp Hf. rewrite (command_line_read e c conditions vs prog p Hc Hprog Hp Hf).
  pose proof (tail_line e c Hcl) as Ht. destruct (tail_words c) as [| w l] eqn:E.
  - inversion Ht as [Q |]; subst. now rewrite app_nil_r.
  - rewrite <- E in *. assert (K : fish_line e (join [SP] (tail_words c)) = Some (tail_values c)).
    { pose proof (line_words e (tail_words c) (tail_values c) [] ltac:(rewrite E; discriminate) Ht) as K. cbn [app] in K. rewrite app_nil_r in K. exact K. }
    rewrite K. reflexivity.
Qed.

(** what the values say *)
Lemma args_tail c : clean_command c -> exists k, complete_args (tail_values c) = Some k /\
  k_command k = [] /\ k_conditions k = [] /\
  k_options k = map (fun x => s "-" ++ f_string x) (cc_short c) ++ map (fun x => s "--" ++ f_string x) (cc_long c) ++ map (fun x => s "-" ++ f_string x) (cc_old c) /\
  k_description k = match cc_description c with Some x => [f_string x] | None => [] end /\
  k_completions k = match cc_arguments c with Some x => [f_string x] | None => [] end /\
  k_flags k = concat (sort_strs (flags_of (cc_flags c))).
Proof.
  intros (_ & _ & _ & Hf). unfold tail_values.
  assert (Hflags : forall l, complete_args (match flags_of (cc_flags c) with [] => [] | _ => [s "-" ++ concat (sort_strs (flags_of (cc_flags c)))] end ++ l)
     = option_map (with_flags (concat (sort_strs (flags_of (cc_flags c))))) (complete_args l)).
  { intros l. apply flags_of_list in Hf. destruct (flags_of (cc_flags c)) as [| x f] eqn:E.
    - cbn [app sort_strs concat]. destruct (complete_args l) as [[]|]; reflexivity.
    - rewrite <- E in *. apply args_flags.
      + destruct (flag_single x (Hf x ltac:(rewrite E; now left))) as (d & -> & _). intros K.
        assert (Q : memc d (concat (sort_strs (flags_of (cc_flags c)))) = true).
        { rewrite memc_concat by (now apply flag_list_sort). rewrite mems_sort, E. cbn. now rewrite N.eqb_refl. }
        rewrite K in Q. discriminate.
      + apply forallb_forall. intros d Hd. apply in_concat in Hd as (y & Hy & Hd). apply (Permutation_in _ (sort_strs_perm _)) in Hy.
        destruct (flag_single y (Hf y Hy)) as (d' & -> & Hm). now destruct Hd as [<- | []]. }
  assert (Hs : forall l r k, complete_args r = Some k -> complete_args (flat_map (fun x => [s "-s"; f_string x]) l ++ r) =
     Some (MkCompletion (k_command k) (k_conditions k) (map (fun x => s "-" ++ f_string x) l ++ k_options k) (k_description k) (k_completions k) (k_flags k))).
  { induction l as [| x l IH]; intros r k Hr; [cbn [flat_map app map]; rewrite Hr; now destruct k |]. cbn [flat_map]. rewrite <- app_assoc. cbn [app]. rewrite args_s, (IH r k Hr). reflexivity. }
  assert (Ho : forall l r k, complete_args r = Some k -> complete_args (flat_map (fun x => [s "-o"; f_string x]) l ++ r) =
     Some (MkCompletion (k_command k) (k_conditions k) (map (fun x => s "-" ++ f_string x) l ++ k_options k) (k_description k) (k_completions k) (k_flags k))).
  { induction l as [| x l IH]; intros r k Hr; [cbn [flat_map app map]; rewrite Hr; now destruct k |]. cbn [flat_map]. rewrite <- app_assoc. cbn [app]. rewrite args_o, (IH r k Hr). reflexivity. }
  assert (Hl : forall l r k, complete_args r = Some k -> complete_args (flat_map (fun x => [s "-l"; f_string x]) l ++ r) =
     Some (MkCompletion (k_command k) (k_conditions k) (map (fun x => s "--" ++ f_string x) l ++ k_options k) (k_description k) (k_completions k) (k_flags k))).
  { induction l as [| x l IH]; intros r k Hr; [cbn [flat_map app map]; rewrite Hr; now destruct k |]. cbn [flat_map]. rewrite <- app_assoc. cbn [app]. rewrite args_l, (IH r k Hr). reflexivity. }
  assert (Hrest : exists k, complete_args (match cc_description c with Some x => [s "-d"; f_string x] | None => [] end
     ++ match flags_of (cc_flags c) with [] => [] | _ => [s "-" ++ concat (sort_strs (flags_of (cc_flags c)))] end
     ++ match cc_arguments c with Some x => [s "-a"; f_string x] | None => [] end) = Some k /\
     k_command k = [] /\ k_conditions k = [] /\ k_options k = [] /\
     k_description k = match cc_description c with Some x => [f_string x] | None => [] end /\
     k_completions k = match cc_arguments c with Some x => [f_string x] | None => [] end /\
     k_flags k = concat (sort_strs (flags_of (cc_flags c)))).
  { destruct (cc_description c) as [x |]; cbn [app]; [rewrite args_d |]; rewrite Hflags;
      (destruct (cc_arguments c) as [y |]; [rewrite args_a |]; cbn [complete_args option_map with_flags nothing k_command k_conditions k_options k_description k_completions k_flags];
       eexists; (split; [reflexivity |]); unfold with_flags, nothing; cbn [k_command k_conditions k_options k_description k_completions k_flags]; rewrite ?app_nil_r; repeat split; reflexivity). }
  destruct Hrest as (k & Hk & K1 & K2 & K3 & K4 & K5 & K6).
  eexists. split; [rewrite (Hs _ _ _ (Hl _ _ _ (Ho _ _ _ Hk))); reflexivity |].
  cbn [k_command k_conditions k_options k_description k_completions k_flags]. rewrite K3, app_nil_r. repeat split; assumption.
Qed.
Lemma args_conditions vs r k : complete_args r = Some k -> complete_args (flat_map dash_n vs ++ r) =
  Some (MkCompletion (k_command k) (vs ++ k_conditions k) (k_options k) (k_description k) (k_completions k) (k_flags k)).
Proof.
  revert r k. induction vs as [| v vs IH]; intros r k H; [cbn [flat_map app]; rewrite H; now destruct k |].
  cbn [flat_map]. rewrite <- app_assoc. unfold dash_n at 1. cbn [app]. rewrite args_n, (IH r k H). reflexivity.
Qed.

(** ** Definitions *)

Lemma parse_args_spec : forall n args, List.length args <= n -> forall c c', parse_args args c = Ok c' ->
  exists f F a, completer_args args f F a /\
  cc_command c' = cc_command c /\ cc_description c' = cc_description c /\ cc_conditions c' = cc_conditions c /\
  cc_short c' = cc_short c /\ cc_long c' = cc_long c /\ cc_old c' = cc_old c /\
  cc_arguments c' = match a with Some x => Some (FString x false) | None => cc_arguments c end /\
  (flag_list (cc_flags c) -> flag_list (cc_flags c')) /\
  forall x, mems x (cc_flags c') = mems x (cc_flags c) || (str_eqb x (s "f") && f) || (str_eqb x (s "F") && F).
Proof.
  induction n as [| n IH]; intros l Hl c c' H; (destruct l as [| a l]; [injection H as <-; exists false, false, None; repeat split; [exact ca_nil | auto | intros; now rewrite !andb_false_r, !orb_false_r] |]);
    cbn [List.length] in Hl; [lia |].
  cbn [parse_args] in H. destruct (str_eqb_spec a (s "-f")) as [-> | _].
  { apply IH in H; [| lia]. destruct H as (f & F & b & Hc & H1 & H2 & H3 & H4 & H5 & H6 & H7 & H8 & H9). exists true, F, b.
    destruct c as [co d cs ar sh lo ol fl]. cbn [add_flag cc_command cc_description cc_conditions cc_short cc_long cc_old cc_arguments cc_flags] in *.
    repeat split; try assumption; [now apply ca_no_files with f | intros K; apply H8, flag_list_add; [cbn; tauto | exact K] |].
    intros x. rewrite H9, mems_set_add. rewrite andb_true_r. destruct (mems x fl), (str_eqb x (s "f")), f, (str_eqb x (s "F")), F; reflexivity. }
  destruct (str_eqb_spec a (s "-F")) as [-> | _].
  { apply IH in H; [| lia]. destruct H as (f & F & b & Hc & H1 & H2 & H3 & H4 & H5 & H6 & H7 & H8 & H9). exists f, true, b.
    destruct c as [co d cs ar sh lo ol fl]. cbn [add_flag cc_command cc_description cc_conditions cc_short cc_long cc_old cc_arguments cc_flags] in *.
    repeat split; try assumption; [now apply ca_files with F | intros K; apply H8, flag_list_add; [cbn; tauto | exact K] |].
    intros x. rewrite H9, mems_set_add. rewrite andb_true_r. destruct (mems x fl), (str_eqb x (s "f")), f, (str_eqb x (s "F")), F; reflexivity. }
  destruct (str_eqb_spec a (s "-a")) as [-> | _]; [| discriminate]. destruct l as [| x l]; [discriminate |]. cbn [List.length] in Hl.
  apply IH in H; [| lia]. destruct H as (f & F & b & Hc & H1 & H2 & H3 & H4 & H5 & H6 & H7 & H8 & H9).
  exists f, F, (match b with Some y => Some y | None => Some x end).
  destruct c as [co d cs ar sh lo ol fl]. cbn [set_arguments cc_command cc_description cc_conditions cc_short cc_long cc_old cc_arguments cc_flags] in *.
  repeat split; try assumption; [now apply ca_arguments |]. rewrite H7. destruct b; reflexivity.
Qed.

Lemma definition_command st d c : get_complete_cmd st d = Ok c -> exists f F a, completer_args (d_args d) f F a /\
  cc_command c = Some (FString (s "$prog") true) /\
  cc_conditions c = map (fun x => FString x true) (get_conditions (d_conditions d) (d_when d)) /\
  cc_short c = (if st then map bare (d_short d) else []) /\ cc_long c = map bare (d_long d) /\
  cc_old c = map bare (d_old d) ++ (if st then [] else map bare (d_short d)) /\
  cc_description c = option_map (fun x => FString x false) (d_description d) /\
  cc_arguments c = option_map (fun x => FString x false) a /\ flag_list (cc_flags c) /\
  mems (s "r") (cc_flags c) = d_requires_argument d /\ mems (s "k") (cc_flags c) = d_keep_order d /\
  mems (s "f") (cc_flags c) = f /\ mems (s "F") (cc_flags c) = F /\ mems (s "x") (cc_flags c) = false.
Proof.
  intros H. unfold get_complete_cmd in H. apply bind_ok in H as (c' & Hp & H). injection H as <-.
  apply (parse_args_spec _ _ (le_n _)) in Hp as (f & F & a & Hc & H1 & H2 & H3 & H4 & H5 & H6 & H7 & H8 & H9). exists f, F, a. split; [exact Hc |].
  destruct c' as [co de cs ar sh lo ol fl]. cbn [set_conditions cc_command cc_description cc_conditions cc_short cc_long cc_old cc_arguments cc_flags] in *.
  rewrite H1, H2, H3, H4, H5, H6, H7, !H9.
  assert (Hfl : flag_list fl).
  { apply H8. clear. destruct st, (d_description d), (d_requires_argument d), (d_keep_order d);
      cbn [set_command add_old_options add_long_options add_short_options set_description add_flag empty_command cc_flags];
      intros x Hx; cbn in Hx; repeat (destruct Hx as [<- | Hx]; [cbn; tauto |]); destruct Hx. }
  clear H1 H2 H3 H4 H5 H6 H7 H8 H9.
  destruct st, (d_description d), (d_requires_argument d), (d_keep_order d);
    cbn [set_command add_old_options add_long_options add_short_options set_description add_flag empty_command option_map app
         cc_command cc_description cc_conditions cc_short cc_long cc_old cc_arguments cc_flags]; rewrite ?app_nil_r;
    repeat split; try (destruct f, F; reflexivity); try (destruct a; reflexivity); exact Hfl.
Qed.

(** ** Option strings *)

(** one dash or two dashes and a name *)
Lemma lstrip_bare d y : d <> DASH -> lstrip_p (N.eqb DASH) (d :: y) = d :: y.
Proof. intros H. cbn [lstrip_p]. now rewrite (proj2 (N.eqb_neq DASH d)) by congruence. Qed.
Lemma bare_short x : dashes_ok x -> is_short_option_string x = true -> s "-" ++ f_string (bare x) = x.
Proof.
  intros (d & y & Hd & [-> | ->]) H; [| discriminate]. unfold bare, f_string.
  change (lstrip_p (N.eqb DASH) (DASH :: d :: y)) with (lstrip_p (N.eqb DASH) (d :: y)). now rewrite lstrip_bare.
Qed.
Lemma bare_long x : dashes_ok x -> is_long_option_string x = true -> s "--" ++ f_string (bare x) = x.
Proof.
  intros (d & y & Hd & [-> | ->]) H.
  - unfold is_long_option_string in H. cbn [starts_with] in H. rewrite (proj2 (N.eqb_neq DASH d)) in H by congruence. discriminate.
  - unfold bare, f_string. change (lstrip_p (N.eqb DASH) (DASH :: DASH :: d :: y)) with (lstrip_p (N.eqb DASH) (d :: y)). now rewrite lstrip_bare.
Qed.
Lemma bare_old x : dashes_ok x -> is_old_option_string x = true -> s "-" ++ f_string (bare x) = x.
Proof.
  intros (d & y & Hd & [-> | ->]) H; [| discriminate]. unfold bare, f_string.
  change (lstrip_p (N.eqb DASH) (DASH :: d :: y)) with (lstrip_p (N.eqb DASH) (d :: y)). now rewrite lstrip_bare.
Qed.
Definition clean_definition (d : definition) : Prop :=
  clean (d_short d ++ d_long d ++ d_old d) /\ (forall x, d_description d = Some x -> clean [x]) /\ clean (d_args d).
Lemma clean_bare x : ~ In BS x /\ ~ In BTICK x -> clean_f (bare x).
Proof.
  intros [H1 H2]. exists (lstrip_p (N.eqb DASH) x). split; [reflexivity |].
  assert (K : forall c, In c (lstrip_p (N.eqb DASH) x) -> In c x).
  { clear. induction x as [| d x IH]; [intros c [] |]. intros c. cbn [lstrip_p]. destruct (N.eqb DASH d); [intros K; right; now apply IH | auto]. }
  split; intros K'; apply K in K'; tauto.
Qed.
Lemma completer_arg_in l f F a : completer_args l f F a -> forall x, a = Some x -> In x l.
Proof.
  induction 1 as [| l f F a H IH | l f F a H IH | l f F a y H IH]; intros x E; [discriminate | right; now apply IH | right; now apply IH |].
  destruct a as [z |]; injection E as <-; [right; right; now apply IH | right; now left].
Qed.
Lemma definition_clean st d c : clean_definition d -> get_complete_cmd st d = Ok c -> clean_command c.
Proof.
  intros (H1 & H2 & H3) H. apply definition_command in H as (f & F & a & Ha & _ & _ & E1 & E2 & E3 & E4 & E5 & Hfl & _).
  split; [| split; [| split; [| exact Hfl]]].
  - intros x Hx. rewrite E1, E2, E3 in Hx. rewrite !in_app_iff in Hx.
    assert (K : In x (map bare (d_short d ++ d_long d ++ d_old d))).
    { rewrite !map_app, !in_app_iff. destruct st; cbn [In] in Hx; tauto. }
    apply in_map_iff in K as (y & <- & Hy). now apply clean_bare, H1.
  - rewrite E4. intros x E. destruct (d_description d) as [y |]; [| discriminate]. injection E as <-.
    exists y. split; [reflexivity |]. apply (H2 y eq_refl y). now left.
  - rewrite E5. intros x E. destruct a as [y |]; [| discriminate]. injection E as <-.
    exists y. split; [reflexivity |]. apply H3. now apply (completer_arg_in _ _ _ _ Ha).
Qed.

(** ** What a definition becomes *)

Record says (e : env) (prog p : str) (d : definition) (k : completion) : Prop := {
  says_command : k_command k = [prog];
  says_options : Forall dashes_ok (d_short d ++ d_long d ++ d_old d) ->
    Forall (fun x => is_short_option_string x = true) (d_short d) -> Forall (fun x => is_long_option_string x = true) (d_long d) ->
    Forall (fun x => is_old_option_string x = true) (d_old d) ->
    Permutation (k_options k) (d_short d ++ d_long d ++ d_old d);
  says_description : k_description k = match d_description d with Some x => [x] | None => [] end;
  says_args : exists f F a, completer_args (d_args d) f F a /\ k_completions k = match a with Some x => [x] | None => [] end /\
    no_files (k_flags k) = f /\ force_files (k_flags k) = F;
  says_requires : requires (k_flags k) = d_requires_argument d;
  says_order : keep_order (k_flags k) = d_keep_order d;
  says_conditions : exists texts, k_conditions k = p :: texts /\
    Forall2 (fun x v => fish_line e x = Some [v]) (get_conditions (d_conditions d) (d_when d)) texts }.

Lemma map_id_on {A} (f : A -> A) l : (forall x, In x l -> f x = x) -> map f l = l.
Proof. induction l as [| x l IH]; intros H; [reflexivity |]. cbn [map]. rewrite H by (now left). rewrite IH by (intros; apply H; now right). reflexivity. Qed.
Lemma conditions_texts e l w : has_helpers e -> exists texts, Forall2 (fun x v => fish_line e x = Some [v]) (get_conditions l w) texts.
Proof.
  intros He. assert (H : forall x, In x (get_conditions l w) -> one_word e x) by (intros x Hx; eapply conditions_one_word; eassumption).
  induction (get_conditions l w) as [| x r IH]; [exists []; constructor |]. destruct (H x (or_introl eq_refl)) as [v Hv].
  destruct IH as [vs IH]; [intros y Hy; apply H; now right |]. exists (v :: vs). now constructor.
Qed.
Lemma definition_says e prog p st d c : has_helpers e -> e (s "prog") = Some prog -> e (s "P") = Some p ->
  clean_definition d -> get_complete_cmd st d = Ok c ->
  exists args k, fish_line e (command_line c (map condition_text (cc_conditions c))) = Some (s "complete" :: args) /\
    complete_args args = Some k /\ says e prog p d k.
Proof.
  intros He Hprog Hp Hcl H. pose proof (definition_clean st d c Hcl H) as Hcc.
  destruct (definition_command st d c H) as (f & F & a & Ha & E0 & Ec & E1 & E2 & E3 & E4 & E5 & Hfl & Fr & Fk & Ff & FF & Fx).
  destruct (conditions_texts e (d_conditions d) (d_when d) He) as [texts Ht].
  rewrite Ec. rewrite map_map. cbn [condition_text]. rewrite map_id.
  pose proof (command_values e c _ texts prog p E0 Hcc Hprog Hp Ht) as Hl.
  destruct (args_tail c Hcc) as (k & Hk & K1 & K2 & K3 & K4 & K5 & K6).
  eexists. eexists. split; [exact Hl |]. split; [rewrite args_c, args_n, (args_conditions texts _ k Hk); reflexivity |].
  destruct (flags_of_meaning (cc_flags c) Hfl Fx) as (M1 & M2 & M3 & M4).
  constructor; cbn [k_command k_conditions k_options k_description k_completions k_flags].
  - now rewrite K1.
  - intros Hd H1 H2 H3. rewrite K3, E1, E2, E3. rewrite Forall_forall in *.
    assert (B1 : map (fun x => s "-" ++ f_string x) (map bare (d_short d)) = d_short d).
    { rewrite map_map. apply map_id_on. intros x Hx. apply bare_short; [apply Hd; rewrite !in_app_iff; tauto | now apply H1]. }
    assert (B2 : map (fun x => s "--" ++ f_string x) (map bare (d_long d)) = d_long d).
    { rewrite map_map. apply map_id_on. intros x Hx. apply bare_long; [apply Hd; rewrite !in_app_iff; tauto | now apply H2]. }
    assert (B3 : map (fun x => s "-" ++ f_string x) (map bare (d_old d)) = d_old d).
    { rewrite map_map. apply map_id_on. intros x Hx. apply bare_old; [apply Hd; rewrite !in_app_iff; tauto | now apply H3]. }
    rewrite map_app, B2, B3. destruct st.
    + rewrite B1. cbn [map]. now rewrite app_nil_r.
    + rewrite B1. cbn [map app]. rewrite app_assoc. apply Permutation_app_comm.
  - rewrite K4, E4. now destruct (d_description d).
  - exists f, F, a. split; [exact Ha |]. rewrite K5, E5, K6, M2, M3. split; [now destruct a | now split].
  - rewrite K6. congruence.
  - rewrite K6. congruence.
  - exists texts. rewrite K2, app_nil_r. now split.
Qed.

(** the block of a command *)
Lemma block_says e prog p st ds cmds : has_helpers e -> e (s "prog") = Some prog -> e (s "P") = Some p ->
  (forall d, In d ds -> clean_definition d) -> Forall2 (fun d c => get_complete_cmd st d = Ok c) ds cmds ->
  exists argss, run e (generator_block true cmds) = Some (e, argss) /\
    Forall2 (fun d args => exists k, complete_args args = Some k /\ says e prog p d k) ds argss.
Proof.
  intros He Hprog Hp Hcl H. unfold generator_block. rewrite generator_lines_inline. cbn [get_lines new_vars v_values map app].
  induction H as [| d c ds cmds Hd Hc IH]; [exists []; split; [reflexivity | constructor] |].
  destruct IH as (argss & Hr & Hf); [intros; apply Hcl; now right |].
  destruct (definition_says e prog p st d c He Hprog Hp (Hcl d (or_introl eq_refl)) Hd) as (args & k & Hl & Hk & Hs).
  exists (args :: argss). split; [| constructor; [exists k; now split | exact Hf]].
  cbn [map]. rewrite (run_complete _ _ _ _ Hl), Hr. reflexivity.
Qed.
