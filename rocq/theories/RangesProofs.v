(** * Proofs: ranges of integers. *)
From Coq Require Import Permutation.
From Verif Require Import Base Value PyStr Shell SpecShell ShellProofs ParserTables SpecChoices ChoicesZsh WhenTests Ranges SpecRanges.
Open Scope list_scope.
Open Scope Z_scope.

(** ** Numbers and their texts *)
Lemma read_digits_uint d : forall n, read_digits (Z.of_nat n) (uint_str d) = Some (Z.of_nat (Nat.of_uint_acc d n)).
Proof.
  induction d; intros n; cbn [uint_str]; [reflexivity | ..].
  all: cbn [read_digits is_digit]; match goal with |- context [if ?b then _ else _] => replace b with true by reflexivity end.
  all: cbn [Nat.of_uint_acc]; rewrite Nat.tail_mul_spec; rewrite <- IHd; f_equal.
  all: match goal with |- context [Z.of_N ?x] => let v := eval vm_compute in (Z.of_N x) in change (Z.of_N x) with v end; lia.
Qed.
Lemma read_digits_show n : read_digits 0 (show_nat n) = Some (Z.of_nat n).
Proof.
  unfold show_nat. change 0 with (Z.of_nat 0). rewrite read_digits_uint. f_equal. f_equal. exact (DecimalNat.Unsigned.of_to n).
Qed.
Lemma show_nat_hd n : exists c x, show_nat n = c :: x /\ is_digit c = true.
Proof.
  pose proof (show_nat_nonempty n) as H. pose proof (show_nat_digits n) as D. destruct (show_nat n) as [| c x]; [congruence |].
  exists c, x. split; [reflexivity |]. cbn [forallb] in D. now apply andb_true_iff in D as [D _].
Qed.
Lemma read_int_show z : read_int (show_Z z) = Some z.
Proof.
  unfold show_Z. destruct (Z.ltb_spec z 0) as [H | H].
  - unfold read_int. rewrite N.eqb_refl. destruct (show_nat_hd (Z.abs_nat z)) as (c & x & E & _). rewrite E, <- E, read_digits_show. cbn. f_equal. lia.
  - destruct (show_nat_hd (Z.abs_nat z)) as (c & x & E & D). unfold read_int. rewrite E.
    destruct (N.eqb_spec c DASH) as [-> | _]; [discriminate |]. rewrite <- E, read_digits_show. f_equal. lia.
Qed.
Lemma show_Z_chars z c : In c (show_Z z) -> is_digit c = true \/ c = DASH.
Proof.
  intros H. assert (In c (show_nat (Z.abs_nat z)) -> is_digit c = true) as K by (intros Hc; pose proof (show_nat_digits (Z.abs_nat z)) as D; rewrite forallb_forall in D; now apply D).
  unfold show_Z in H. destruct (z <? 0); [destruct H as [<- | H]; [now right |] |]; left; now apply K.
Qed.
Lemma show_Z_not z c : is_digit c = false -> c <> DASH -> ~ In c (show_Z z).
Proof. intros H1 H2 H. apply show_Z_chars in H as [H | H]; congruence. Qed.
Lemma show_Z_nonempty z : show_Z z <> [].
Proof. unfold show_Z. destruct (z <? 0); [discriminate | apply show_nat_nonempty]. Qed.
Lemma digit_safe c : is_digit c = true -> is_safe c = true.
Proof. intros H. unfold is_safe, is_word. now rewrite H, !orb_true_r. Qed.
Lemma show_Z_safe z : forallb is_safe (show_Z z) = true.
Proof. apply forallb_forall. intros c Hc. apply show_Z_chars in Hc as [H | ->]; [now apply digit_safe | reflexivity]. Qed.

(** ** Counting *)
Lemma counting_In start step n x : In x (counting start step n) <-> exists k : nat, x = start + Z.of_nat k * step /\ (k <= n)%nat.
Proof.
  unfold counting. rewrite in_map_iff. split.
  - intros (k & <- & Hk). apply in_seq in Hk. exists k. split; [reflexivity | lia].
  - intros (k & -> & Hk). exists k. split; [reflexivity |]. apply in_seq. lia.
Qed.
Lemma counting_NoDup start step n : step <> 0 -> NoDup (counting start step n).
Proof. intros H. apply FinFun.Injective_map_NoDup; [| apply seq_NoDup]. intros a b E. nia. Qed.

Definition the_numbers (start stop step : Z) : list Z := counting start step (Z.to_nat (Z.abs (stop - start) / Z.abs step)).
Lemma numbers_In start stop step x : step <> 0 -> (0 < step -> start <= stop) -> (step < 0 -> stop <= start) ->
  In x (the_numbers start stop step) <-> in_range start stop step x.
Proof.
  intros H0 H1 H2. unfold the_numbers. rewrite counting_In. unfold in_range. split; intros (k & -> & H); exists k; (split; [reflexivity |]).
  - assert (Z.of_nat k <= Z.abs (stop - start) / Z.abs step) as Hk.
    { assert (0 <= Z.abs (stop - start) / Z.abs step) by (apply Z.div_pos; lia). lia. }
    assert (Z.abs step * (Z.abs (stop - start) / Z.abs step) <= Z.abs (stop - start)) as Hm by (apply Z.mul_div_le; lia).
    split; intros Hs; nia.
  - destruct H as [H3 H4]. assert (Z.of_nat k <= Z.abs (stop - start) / Z.abs step) as Hk; [| lia].
    apply Z.div_le_lower_bound; [lia |]. destruct (Z.lt_total step 0) as [Hs | [Hs | Hs]]; [specialize (H4 Hs); specialize (H2 Hs) | lia | specialize (H3 Hs); specialize (H1 Hs)]; nia.
Qed.
Lemma expansion_numbers start stop step : step <> 0 -> (0 < step -> start <= stop) -> (step < 0 -> stop <= start) ->
  expansion start stop step = the_numbers start stop step \/ (start = stop /\ expansion start stop step = [start] /\ the_numbers start stop step = [start]).
Proof.
  intros H0 H1 H2. unfold expansion, the_numbers. destruct (Z.eqb_spec (Z.abs step) 0) as [E | _]; [lia |]. cbv zeta.
  destruct (Z.eq_dec start stop) as [-> | Hne].
  - right. split; [reflexivity |]. rewrite Z.sub_diag, Z.abs_0, Z.div_0_l by lia. unfold counting. cbn. split; f_equal; lia.
  - left. f_equal. destruct (Z.leb_spec start stop); destruct (Z.lt_total step 0) as [Hs | [Hs | Hs]]; lia.
Qed.
Lemma expansion_the start stop step : step <> 0 -> (0 < step -> start <= stop) -> (step < 0 -> stop <= start) ->
  expansion start stop step = the_numbers start stop step.
Proof. intros H0 H1 H2. destruct (expansion_numbers start stop step H0 H1 H2) as [E | (_ & E1 & E2)]; congruence. Qed.
Lemma seq_the start stop step : step <> 0 -> (0 < step -> start <= stop) -> (step < 0 -> stop <= start) ->
  seq_numbers start step stop = the_numbers start stop step.
Proof.
  intros H0 H1 H2. unfold seq_numbers, the_numbers. destruct (Z.ltb_spec 0 step) as [Hs | Hs].
  - specialize (H1 Hs). destruct (Z.leb_spec start stop); [| lia]. do 2 f_equal. rewrite !Z.abs_eq by lia. reflexivity.
  - destruct (Z.ltb_spec step 0) as [Hs' | Hs']; [| lia]. specialize (H2 Hs'). destruct (Z.leb_spec stop start); [| lia].
    do 3 f_equal; lia.
Qed.

(** ** Texts *)
Lemma fits_b z : fits z -> fitsb z = true.
Proof. intros [H1 H2]. unfold fitsb. apply andb_true_iff. split; [now apply Z.leb_le | now apply Z.ltb_lt]. Qed.
Definition numbers_text (start stop step : Z) : str := braces (VInt start) (VInt stop) (VInt step).
Lemma brace_numbers_text start stop step : fits start -> fits stop -> fits step -> brace_numbers (numbers_text start stop step) = Some (start, stop, step).
Proof.
  intros H1 H2 H3. unfold numbers_text, braces, brace_numbers. cbn [is_one int_str].
  assert (forall z, ~ In DOT (show_Z z)) as K by (intros z; apply show_Z_not; [reflexivity | discriminate]).
  destruct (Z.eqb_spec step 1) as [-> | Hs].
  - replace (s "{" ++ show_Z start ++ s ".." ++ show_Z stop ++ s "}") with (s "{" ++ (show_Z start ++ DOT :: [] ++ DOT :: show_Z stop) ++ s "}") by (rewrite <- !app_assoc; reflexivity).
    rewrite between_app. rewrite !split_c_app by (auto using in_nil). rewrite split_c_word by apply K. rewrite !read_int_show, !fits_b by assumption. reflexivity.
  - replace (s "{" ++ show_Z start ++ s ".." ++ show_Z stop ++ s ".." ++ show_Z step ++ s "}") with (s "{" ++ (show_Z start ++ DOT :: [] ++ DOT :: show_Z stop ++ DOT :: [] ++ DOT :: show_Z step) ++ s "}") by (change (s "..") with [DOT; DOT]; rewrite <- !app_assoc; cbn [app]; rewrite <- !app_assoc; reflexivity).
    rewrite between_app. rewrite !split_c_app by (auto using in_nil). rewrite split_c_word by apply K. rewrite !read_int_show, !fits_b by assumption. reflexivity.
Qed.
Lemma numbers_text_chars start stop step c : In c (numbers_text start stop step) -> is_digit c = true \/ c = DASH \/ c = DOT \/ c = LBRC \/ c = RBRC.
Proof.
  unfold numbers_text, braces. cbn [is_one int_str].
  destruct (step =? 1); rewrite !in_app_iff; intros H;
    repeat match type of H with _ \/ _ => destruct H as [H | H] end;
    try (apply show_Z_chars in H; tauto); cbn in H; repeat (destruct H as [<- | H]; [tauto |]); destruct H.
Qed.
Lemma numbers_words start stop step : brace_words (numbers_text start stop step) = Some [numbers_text start stop step].
Proof.
  unfold brace_words. assert (forallb (fun c => is_word c || memc c [DOT; DASH; LBRC; RBRC; SP]) (numbers_text start stop step) = true) as ->.
  { apply forallb_forall. intros c H. apply numbers_text_chars in H as [H | [-> | [-> | [-> | ->]]]]; try reflexivity. unfold is_word. now rewrite H, !orb_true_r. }
  rewrite split_c_word; [| intros H; apply numbers_text_chars in H as [H | H]; [discriminate | repeat destruct H as [H | H]; discriminate]].
  cbn [filter]. unfold numbers_text, braces. destruct (is_one (VInt step)); reflexivity.
Qed.
Lemma quoted_word x : ~ In SQ x -> posix_words (SQ :: x ++ [SQ]) = Some [x].
Proof. intros H. unfold posix_words. rewrite sh_read_sq_quoted by exact H. reflexivity. Qed.
Lemma numbers_no_quote start stop step : ~ In SQ (numbers_text start stop step).
Proof. intros H. apply numbers_text_chars in H as [H | H]; [discriminate | repeat destruct H as [H | H]; discriminate]. Qed.

Section Range.
Variables start stop step : Z.
Hypothesis H0 : step <> 0.
Hypothesis H1 : 0 < step -> start <= stop.
Hypothesis H2 : step < 0 -> stop <= start.
Let l := the_numbers start stop step.
Section Fit.
Hypothesis F1 : fits start.
Hypothesis F2 : fits stop.
Hypothesis F3 : fits step.
Lemma bash_words_right cur : compgen_braces (SQ :: numbers_text start stop step ++ [SQ]) cur = Some (filter (begins_with cur) (map show_Z l)).
Proof.
  unfold compgen_braces. rewrite quoted_word by apply numbers_no_quote. rewrite numbers_words. cbn [option_map flat_map]. rewrite app_nil_r.
  unfold bash_braces. rewrite brace_numbers_text by assumption. now rewrite expansion_the.
Qed.
Lemma behind_differs p q x c d : c <> d -> text_behind (p ++ c :: q) (p ++ d :: x) = None.
Proof. intros H. induction p as [| e p IH]; cbn [app text_behind]; [now rewrite (proj2 (N.eqb_neq c d) H) | now rewrite N.eqb_refl]. Qed.
Lemma bash_range_right append cur before : bash_range_offers (bash_range append (VInt start) (VInt stop) (VInt step)) cur before =
  Some ((if append then before else []) ++ filter (begins_with cur) (map show_Z l)).
Proof.
  unfold bash_range, bash_range_offers. fold (numbers_text start stop step). cbv zeta. destruct append.
  - assert (text_between (s "COMPREPLY=($(compgen -W ") (s " -- ""$cur""))") (s "COMPREPLY" ++ s "+" ++ s "=($(compgen -W '" ++ numbers_text start stop step ++ s "' -- ""$cur""))") = None) as ->.
    { unfold text_between. change (s "COMPREPLY=($(compgen -W ") with (s "COMPREPLY" ++ EQ :: s "($(compgen -W "). change (s "+" ++ s "=($(compgen -W '" ++ numbers_text start stop step ++ s "' -- ""$cur""))") with (PLUS :: s "=($(compgen -W '" ++ numbers_text start stop step ++ s "' -- ""$cur""))"). rewrite behind_differs by discriminate. reflexivity. }
    replace (s "COMPREPLY" ++ s "+" ++ s "=($(compgen -W '" ++ numbers_text start stop step ++ s "' -- ""$cur""))") with
      (s "COMPREPLY+=($(compgen -W " ++ (SQ :: numbers_text start stop step ++ [SQ]) ++ s " -- ""$cur""))") by (rewrite <- app_comm_cons, <- app_assoc; reflexivity).
    rewrite between_app. now rewrite bash_words_right.
  - replace (s "COMPREPLY" ++ [] ++ s "=($(compgen -W '" ++ numbers_text start stop step ++ s "' -- ""$cur""))") with
      (s "COMPREPLY=($(compgen -W " ++ (SQ :: numbers_text start stop step ++ [SQ]) ++ s " -- ""$cur""))") by (rewrite <- app_comm_cons, <- app_assoc; reflexivity).
    rewrite between_app. apply bash_words_right.
Qed.
Lemma zsh_range_right : zsh_range_offers (zsh_range_action (VInt start) (VInt stop) (VInt step)) = Some (map show_Z (if step <? 0 then rev l else l)).
Proof.
  unfold zsh_range_action, zsh_range_offers. fold (numbers_text start stop step).
  replace (s "'(" ++ numbers_text start stop step ++ s ")'") with (SQ :: (s "(" ++ numbers_text start stop step ++ s ")") ++ [SQ]) by (rewrite <- !app_assoc; reflexivity).
  rewrite quoted_word.
  - rewrite between_app, numbers_words. cbn [option_map flat_map]. rewrite app_nil_r. unfold zsh_braces. rewrite brace_numbers_text by assumption. now rewrite expansion_the.
  - rewrite !in_app_iff. intros [H | [H | H]]; [destruct H as [H | []]; discriminate | exact (numbers_no_quote _ _ _ H) | destruct H as [H | []]; discriminate].
Qed.
End Fit.
Lemma run_right : run_seq (if step =? 1 then [show_Z start; show_Z stop] else [show_Z start; show_Z step; show_Z stop]) = Some (map show_Z l).
Proof.
  unfold run_seq. destruct (Z.eqb_spec step 1) as [E | _]; cbn [map]; rewrite !read_int_show; unfold l; rewrite <- seq_the by assumption; [now rewrite E | reflexivity].
Qed.
Lemma fish_words_join xs : (forall x, In x xs -> x <> [] /\ forallb is_safe x = true) -> fish_words (join_quoted xs [SP]) = Some xs.
Proof.
  intros H. apply fish_join_quoted. intros x Hx. destruct (H x Hx) as [_ K]. rewrite forallb_forall in K. split; intros Hc; apply K in Hc; discriminate.
Qed.
Lemma command_safe x : In x (fish_range_command (VInt start) (VInt stop) (VInt step)) -> x <> [] /\ forallb is_safe x = true.
Proof.
  unfold fish_range_command. cbn [is_one int_str]. intros H.
  assert (x = s "seq" \/ exists z, x = show_Z z) as [-> | (z & ->)].
  { destruct (step =? 1); cbn [In] in H; repeat (destruct H as [<- | H]; [eauto |]); destruct H. }
  - split; [discriminate | reflexivity].
  - split; [apply show_Z_nonempty | apply show_Z_safe].
Qed.
Lemma fish_seq_right : fish_seq (fish_range_code (VInt start) (VInt stop) (VInt step)) = Some (map show_Z l).
Proof.
  unfold fish_seq, fish_range_code. rewrite fish_words_join by exact command_safe. rewrite <- run_right. unfold fish_range_command. cbn [is_one int_str]. destruct (step =? 1); reflexivity.
Qed.
Lemma fish_range_right : fish_range_offers (fish_range_arg (VInt start) (VInt stop) (VInt step)) = Some (map show_Z l).
Proof. unfold fish_range_offers, fish_range_arg. rewrite between_app. exact fish_seq_right. Qed.
Lemma zsh_seq_right : zsh_seq_offers (zsh_range_code (VInt start) (VInt stop) (VInt step)) = Some (map show_Z l).
Proof.
  unfold zsh_range_code, zsh_seq_offers. cbn [is_one int_str]. cbv zeta. rewrite between_app.
  assert ((if step =? 1 then s "command seq " ++ show_Z start ++ s " " ++ show_Z stop else s "command seq " ++ show_Z start ++ s " " ++ show_Z step ++ s " " ++ show_Z stop) =
    join_quoted (s "command" :: fish_range_command (VInt start) (VInt stop) (VInt step)) [SP]) as ->.
  { unfold fish_range_command. cbn [is_one int_str]. unfold join_quoted.
    destruct (step =? 1); cbn [map join]; rewrite !(quote_safe (show_Z _)) by (apply show_Z_nonempty || apply show_Z_safe); reflexivity. }
  rewrite posix_join_quoted. rewrite <- run_right. unfold fish_range_command. cbn [is_one int_str]. destruct (step =? 1); reflexivity.
Qed.
End Range.
