(** * Proofs about the single tests of when-conditions, and about conditions read as a whole. *)
From Coq Require Import DecimalZ DecimalPos DecimalFacts ZifyBool.
From Verif Require Import Base StrUtils Shell SpecShell ShellParser When SpecWhen
  ShellProofs StrUtilsProofs WhenProofs.

(** ** Integers *)

Lemma int_digits_pos d : forall acc,
  int_digits true (Zpos acc) (uint_str d) = Some (Zpos (Pos.of_uint_acc d acc)).
Proof.
  induction d; intros acc; [reflexivity|..]; cbn [uint_str int_digits Pos.of_uint_acc];
    lazymatch goal with |- context [is_digit ?c] => change (is_digit c) with true end; cbv iota;
    rewrite <- IHd;
    lazymatch goal with |- int_digits _ ?a _ = int_digits _ ?b _ => replace a with b by lia end;
    reflexivity.
Qed.

Lemma int_digits_uint d p : (d = Decimal.Nil -> p = true) ->
  int_digits p 0 (uint_str d) = Some (Z.of_N (Pos.of_uint d)).
Proof.
  revert p. induction d; intros p H; cbn [uint_str int_digits Pos.of_uint];
    [rewrite H by reflexivity; reflexivity|..];
    lazymatch goal with |- context [is_digit ?c] => change (is_digit c) with true end; cbv iota;
    [apply (IHd true); reflexivity|..]; apply int_digits_pos.
Qed.

Lemma lstrip_id p x : forallb (fun c => negb (p c)) x = true -> lstrip_p p x = x.
Proof.
  destruct x as [|c x]; [reflexivity|]. cbn. destruct (p c); [discriminate|reflexivity].
Qed.
Lemma strip_id p x : forallb (fun c => negb (p c)) x = true -> strip_p p x = x.
Proof.
  intros H. unfold strip_p, rstrip_p. rewrite (lstrip_id p x H), lstrip_id, rev_involutive; [reflexivity|].
  rewrite forallb_forall in *. intros c Hc. apply H. rewrite in_rev. exact Hc.
Qed.

Lemma uint_str_head d : forall c x, uint_str d = c :: x -> is_digit c = true.
Proof. destruct d; intros c x H; cbn [uint_str] in H; try discriminate; injection H as <- _; reflexivity. Qed.

Lemma py_int_str z : py_int (z_str z) = Some z.
Proof.
  unfold py_int. rewrite strip_id.
  2:{ eapply (forallb_impl _ _ _); [|apply z_str_chars]. intros c H. apply orb_true_iff in H as [H|H].
      - unfold is_digit in H. unfold is_space. lia.
      - apply N.eqb_eq in H as ->. reflexivity. }
  rewrite <- (DecimalZ.of_to z) at 2.
  assert (forall d, Z.to_int z = Decimal.Pos d \/ Z.to_int z = Decimal.Neg d -> d <> Decimal.Nil) as Hn.
  { intros d. unfold Z.to_int. destruct z; intros [E|E]; try discriminate; injection E as <-; try discriminate;
      apply DecimalPos.Unsigned.to_uint_nonnil. }
  unfold z_str. destruct (Z.to_int z) as [d|d]; cbn [Z.of_int].
  - specialize (Hn d (or_introl eq_refl)). unfold Z.of_uint.
    rewrite <- (int_digits_uint d false) by congruence.
    destruct (uint_str d) as [|c x] eqn:E; [reflexivity|]. apply uint_str_head in E.
    assert (N.eqb c DASH = false /\ N.eqb c PLUS = false) as [-> ->]; [|reflexivity].
    unfold is_digit in E. apply andb_true_iff in E as [E1 E2]. split; apply N.eqb_neq; lia.
  - specialize (Hn d (or_intror eq_refl)). cbn. unfold Z.of_uint.
    rewrite (int_digits_uint d false) by congruence. reflexivity.
Qed.

(** ** Single tests *)

Lemma strip_flags_app flags : Forall is_flag flags -> forall ic any rest,
  (forall a rest', rest = a :: rest' -> ~ is_flag a) ->
  strip_flags ic any (flags ++ rest) =
  (ic || has_flag (s "nocase") flags, any || has_flag (s "any") flags, rest).
Proof.
  induction 1 as [|a flags Ha Hf IH]; intros ic any rest Hr.
  - cbn [app has_flag existsb]. rewrite !orb_false_r. destruct rest as [|a rest]; [reflexivity|].
    specialize (Hr a rest eq_refl). cbn [strip_flags].
    destruct (str_eqb_spec (lower a) (s "nocase")) as [E|_]; [elim Hr; left; exact E|].
    destruct (str_eqb_spec (lower a) (s "any")) as [E|_]; [elim Hr; right; exact E|]. reflexivity.
  - cbn [app strip_flags]. unfold has_flag. cbn [existsb]. fold (has_flag (s "nocase") flags).
    fold (has_flag (s "any") flags). destruct Ha as [E|E]; rewrite E.
    + change (str_eqb (s "nocase") (s "nocase")) with true.
      change (str_eqb (s "nocase") (s "any")) with false. cbv iota.
      rewrite IH by exact Hr. cbn [orb]. rewrite !orb_true_r. reflexivity.
    + change (str_eqb (s "any") (s "nocase")) with false.
      change (str_eqb (s "any") (s "any")) with true. cbv iota.
      rewrite IH by exact Hr. cbn [orb]. rewrite !orb_true_r. reflexivity.
Qed.

Lemma strip_flags_inv args : forall ic any ic' any' rest,
  strip_flags ic any args = (ic', any', rest) ->
  exists flags, args = flags ++ rest /\ Forall is_flag flags /\
    ic' = ic || has_flag (s "nocase") flags /\ any' = any || has_flag (s "any") flags.
Proof.
  induction args as [|a args IH]; intros ic any ic' any' rest H; cbn [strip_flags] in H.
  - injection H as <- <- <-. exists []. cbn. rewrite !orb_false_r. auto.
  - destruct (str_eqb_spec (lower a) (s "nocase")) as [E|En].
    { destruct (IH _ _ _ _ _ H) as (f & -> & Hf & -> & ->). exists (a :: f).
      split; [reflexivity|]. split; [constructor; [left; exact E|exact Hf]|].
      unfold has_flag. cbn [existsb]. rewrite E. fold (has_flag (s "nocase") f). fold (has_flag (s "any") f).
      change (str_eqb (s "nocase") (s "nocase")) with true.
      change (str_eqb (s "nocase") (s "any")) with false. cbn [orb]. rewrite orb_true_r. auto. }
    destruct (str_eqb_spec (lower a) (s "any")) as [E|Ea].
    { destruct (IH _ _ _ _ _ H) as (f & -> & Hf & -> & ->). exists (a :: f).
      split; [reflexivity|]. split; [constructor; [right; exact E|exact Hf]|].
      unfold has_flag. cbn [existsb]. rewrite E. fold (has_flag (s "nocase") f). fold (has_flag (s "any") f).
      change (str_eqb (s "any") (s "any")) with true.
      change (str_eqb (s "any") (s "nocase")) with false. cbn [orb]. rewrite orb_true_r. auto. }
    injection H as <- <- <-. exists []. cbn [app has_flag existsb]. rewrite !orb_false_r. auto.
Qed.

Lemma split_dashes_inv args : forall o v, split_dashes args = (o, v) ->
  ~ In (s "--") o /\ (args = o /\ v = [] \/ args = o ++ s "--" :: v).
Proof.
  induction args as [|a args IH]; intros o v H; cbn [split_dashes] in H.
  - injection H as <- <-. split; [intros []|left; auto].
  - destruct (str_eqb_spec a (s "--")) as [->|Ha].
    + injection H as <- <-. split; [intros []|right; reflexivity].
    + destruct (split_dashes args) as [o' v'] eqn:E. injection H as <- <-.
      destruct (IH _ _ eq_refl) as [Hi [[-> ->]| ->]].
      * split; [intros [E'|E']; [congruence|tauto]|left; auto].
      * split; [intros [E'|E']; [congruence|tauto]|right; reflexivity].
Qed.

Lemma split_dashes_app o v : ~ In (s "--") o -> split_dashes (o ++ s "--" :: v) = (o, v).
Proof.
  induction o as [|a o IH]; intros H.
  - cbn [app split_dashes]. change (str_eqb (s "--") (s "--")) with true. reflexivity.
  - cbn [app split_dashes]. destruct (str_eqb_spec a (s "--")) as [->|Ha]; [elim H; left; reflexivity|].
    rewrite IH; [reflexivity|]. intros Hi. apply H. right. exact Hi.
Qed.

Lemma valid_not_dashes x : is_valid_option_string x = true -> x <> s "--".
Proof. intros H ->. discriminate. Qed.
Lemma valid_not_flag x : is_valid_option_string x = true -> ~ is_flag x.
Proof.
  intros H. apply valid_option_string_iff in H as (y & -> & _).
  intros [E|E]; cbn in E; discriminate.
Qed.

Lemma options_clean os : (forall x, In x os -> is_valid_option_string x = true) -> ~ In (s "--") os.
Proof. intros H Hi. exact (valid_not_dashes _ (H _ Hi) eq_refl). Qed.

Lemma options_first os v : os <> [] -> (forall x, In x os -> is_valid_option_string x = true) ->
  forall a r, os ++ v = a :: r -> ~ is_flag a.
Proof.
  intros Hn H a r E. destruct os as [|o os]; [congruence|]. cbn [app] in E. injection E as <- <-.
  apply valid_not_flag, H. left. reflexivity.
Qed.

Lemma option_is_iff args o : mk_option_is args = Ok o <-> writes_option_is args o.
Proof.
  unfold mk_option_is, writes_option_is. split.
  - destruct (strip_flags false false args) as [[ic any] rest] eqn:Ef.
    destruct (strip_flags_inv _ _ _ _ _ _ Ef) as (flags & -> & Hf & -> & ->).
    destruct (split_dashes rest) as [os vs] eqn:Ed.
    destruct (forallb is_valid_option_string os) eqn:Ev; [|discriminate]. rewrite forallb_forall in Ev.
    destruct (split_dashes_inv _ _ _ Ed) as [_ [[-> ->]| ->]].
    { destruct os; discriminate. }
    destruct os as [|o1 os]; [discriminate|]. destruct vs as [|v vs]; [discriminate|].
    intros H. apply Ok_inj in H. subst o. exists flags, (o1 :: os), (v :: vs).
    repeat split; try discriminate; assumption.
  - intros (flags & os & vs & -> & Hf & Ho & Hv & Hn & ->).
    rewrite strip_flags_app; [|exact Hf|apply options_first; assumption].
    rewrite split_dashes_app by apply options_clean, Hv.
    rewrite (proj2 (forallb_forall _ _) Hv). cbn [negb orb].
    destruct os; [congruence|]. destruct vs; [congruence|]. reflexivity.
Qed.

Lemma option_match_iff ere args o : mk_option_match ere args = Ok o <-> writes_option_match ere args o.
Proof.
  unfold mk_option_match, writes_option_match. split.
  - destruct (strip_flags false false args) as [[ic any] rest] eqn:Ef.
    destruct (strip_flags_inv _ _ _ _ _ _ Ef) as (flags & -> & Hf & -> & ->).
    destruct (split_dashes rest) as [os vs] eqn:Ed.
    destruct (split_dashes_inv _ _ _ Ed) as [_ Hs].
    destruct vs as [|r [|? ?]]; [| |discriminate];
      (destruct (forallb is_valid_option_string os) eqn:Ev; [|discriminate]; rewrite forallb_forall in Ev;
       cbn [negb]; destruct os as [|o1 os]; [discriminate|]); [discriminate|].
    destruct Hs as [[_ ?]| ->]; [discriminate|].
    destruct r as [|c r]; [discriminate|]. destruct (ere (c :: r)) eqn:Er; [|discriminate].
    intros H. apply Ok_inj in H. subst o. exists flags, (o1 :: os), (c :: r).
    repeat split; try discriminate; assumption.
  - intros (flags & os & r & -> & Hf & Ho & Hv & Hn & He & ->).
    rewrite strip_flags_app; [|exact Hf|apply options_first; assumption].
    rewrite split_dashes_app by apply options_clean, Hv.
    rewrite (proj2 (forallb_forall _ _) Hv). cbn [negb orb].
    destruct os; [congruence|]. destruct r; [congruence|]. rewrite He. reflexivity.
Qed.

Lemma has_option_iff args o : mk_has_option args = Ok o <-> writes_has_option args o.
Proof.
  unfold mk_has_option, writes_has_option. destruct args.
  - split; [discriminate|intros [? _]; congruence].
  - split; [intros H; apply Ok_inj in H; split; [discriminate|congruence]|intros [_ ->]; reflexivity].
Qed.

Lemma positional_count_iff args o : mk_positional_count args = Ok o <-> writes_positional_count args o.
Proof.
  unfold writes_positional_count. change [s "=="; s "!="; s "<="; s ">="; s "<"; s ">"] with operators.
  split.
  - unfold mk_positional_count. destruct args as [|op [|n [|? ?]]]; try discriminate;
      (destruct (mems op operators) eqn:E; [|discriminate]); cbn [negb]; [discriminate|].
    destruct (py_int n) as [z|] eqn:En; [|discriminate]. intros H; apply Ok_inj in H.
    exists op, n, z. apply mems_In in E. auto.
  - intros (op & n & z & -> & Hi & Hn & ->). unfold mk_positional_count.
    apply mems_In in Hi. rewrite Hi, Hn. reflexivity.
Qed.

Lemma positional_contains_iff args o :
  mk_positional_contains args = Ok o <-> writes_positional_contains args o.
Proof.
  unfold writes_positional_contains. split.
  - unfold mk_positional_contains.
    assert (exists ic rest, (match args with
      | a :: args' => if str_eqb a (s "-i") then (true, args') else (false, args)
      | [] => (false, args) end) = (ic, rest) /\ args = (if ic then [s "-i"] else []) ++ rest) as
      (ic & rest & E & Ea).
    { destruct args as [|a args]; [exists false, []; auto|].
      destruct (str_eqb_spec a (s "-i")) as [->|_]; [exists true, args|exists false, (a :: args)]; auto. }
    rewrite E. destruct rest as [|n vs]; [discriminate|].
    destruct (py_int n) as [z|] eqn:En; [|discriminate]. destruct vs; [discriminate|].
    intros H; apply Ok_inj in H. eexists ic, n, z, _. split; [exact Ea|]. split; [exact En|].
    split; [discriminate|congruence].
  - intros (ic & n & z & vs & -> & Hn & Hv & ->). unfold mk_positional_contains. destruct ic; cbn [app].
    + change (str_eqb (s "-i") (s "-i")) with true. cbv iota. rewrite Hn. destruct vs; [congruence|reflexivity].
    + destruct (str_eqb_spec n (s "-i")) as [->|_]; [discriminate|]. rewrite Hn.
      destruct vs; [congruence|reflexivity].
Qed.

Lemma mk_test_iff ere args o : mk_test ere args = Ok o <-> writes ere args o.
Proof.
  unfold writes. split.
  - destruct args as [|cmd args]; [discriminate|]. cbn [mk_test]. intros H. exists args.
    destruct (str_eqb_spec cmd (s "option_is")) as [->|_]; [left; split; [reflexivity|apply option_is_iff, H]|right].
    destruct (str_eqb_spec cmd (s "option_match")) as [->|_]; [left; split; [reflexivity|apply option_match_iff, H]|right].
    destruct (str_eqb_spec cmd (s "has_option")) as [->|_]; [left; split; [reflexivity|apply has_option_iff, H]|right].
    destruct (str_eqb_spec cmd (s "positional_count")) as [->|_];
      [left; split; [reflexivity|apply positional_count_iff, H]|right].
    destruct (str_eqb_spec cmd (s "positional_contains")) as [->|_]; [|discriminate].
    split; [reflexivity|apply positional_contains_iff, H].
  - intros (rest & [[-> H]|[[-> H]|[[-> H]|[[-> H]|[-> H]]]]]).
    + apply option_is_iff, H.
    + apply option_match_iff, H.
    + apply has_option_iff, H.
    + apply positional_count_iff, H.
    + apply positional_contains_iff, H.
Qed.

Lemma flags_cases (ic any : bool) :
  Forall is_flag ((if ic then [s "nocase"] else []) ++ (if any then [s "any"] else [])) /\
  has_flag (s "nocase") ((if ic then [s "nocase"] else []) ++ (if any then [s "any"] else [])) = ic /\
  has_flag (s "any") ((if ic then [s "nocase"] else []) ++ (if any then [s "any"] else [])) = any.
Proof.
  destruct ic, any; cbn [app]; (split; [|split; reflexivity]); repeat apply Forall_cons;
    try apply Forall_nil; ((left; reflexivity) || (right; reflexivity)).
Qed.

Lemma test_args_ok ere o : sensible ere o -> mk_test ere (test_args o) = Ok o.
Proof.
  intros H. apply mk_test_iff. unfold writes.
  destruct o as [os vs ic any|os r ic any|os|op n|ic n vs]; cbn [test_args sensible] in *.
  - destruct H as (Ho & Hv & Hos). destruct (flags_cases ic any) as (Hf & H1 & H2).
    eexists. left. split; [reflexivity|]. eexists _, os, vs. rewrite app_assoc. split; [reflexivity|].
    rewrite H1, H2. auto 10.
  - destruct H as (Ho & Hos & Hr & He). destruct (flags_cases ic any) as (Hf & H1 & H2).
    eexists. right; left. split; [reflexivity|]. eexists _, os, r. rewrite app_assoc. split; [reflexivity|].
    rewrite H1, H2. auto 10.
  - eexists. right; right; left. split; [reflexivity|]. split; auto.
  - eexists. do 3 right; left. split; [reflexivity|]. exists op, (z_str n), n. rewrite py_int_str. auto.
  - eexists. do 4 right. split; [reflexivity|]. exists ic, (z_str n), n, vs. rewrite py_int_str. auto.
Qed.

(** ** Whole conditions *)

Lemma syms_map {A B} (f : A -> B) :
  (forall t, term_syms (term_map f t) =
     map (fun y => match y with STest a => STest (f a) | SAnd => SAnd | SOr => SOr | SNot => SNot
                           | SOpen => SOpen | SClose => SClose end) (term_syms t)) /\
  (forall l, conds_syms (conds_map f l) =
     map (fun y => match y with STest a => STest (f a) | SAnd => SAnd | SOr => SOr | SNot => SNot
                           | SOpen => SOpen | SClose => SClose end) (conds_syms l)).
Proof.
  apply term_conds_ind.
  - reflexivity.
  - intros t IH. cbn. rewrite IH. reflexivity.
  - intros l IH. change (term_map f (Group l)) with (Group (conds_map f l)).
    rewrite !term_syms_group, IH. cbn [map]. rewrite map_app. reflexivity.
  - intros t IH. exact IH.
  - intros l IHl t IHt. change (conds_map f (And l t)) with (And (conds_map f l) (term_map f t)).
    rewrite !conds_syms_and, IHl, IHt, map_app. reflexivity.
  - intros l IHl t IHt. change (conds_map f (Or l t)) with (Or (conds_map f l) (term_map f t)).
    rewrite !conds_syms_or, IHl, IHt, map_app. reflexivity.
Qed.

Lemma true_map {A B} (f : A -> B) (truth : B -> bool) :
  (forall t, term_true truth (term_map f t) = term_true (fun a => truth (f a)) t) /\
  (forall l, conds_true truth (conds_map f l) = conds_true (fun a => truth (f a)) l).
Proof.
  apply term_conds_ind.
  - reflexivity.
  - intros t IH. cbn. rewrite IH. reflexivity.
  - intros l IH. exact IH.
  - intros t IH. exact IH.
  - intros l IHl t IHt. change (conds_true truth (conds_map f l) && term_true truth (term_map f t) =
      conds_true (fun a => truth (f a)) l && term_true (fun a => truth (f a)) t). rewrite IHl, IHt. reflexivity.
  - intros l IHl t IHt. change (conds_true truth (conds_map f l) || term_true truth (term_map f t) =
      conds_true (fun a => truth (f a)) l || term_true (fun a => truth (f a)) t). rewrite IHl, IHt. reflexivity.
Qed.

Lemma replace_commands_read ere (read : list str -> wobj) ys :
  (forall args, In (STest args) ys -> mk_test ere args = Ok (read args)) ->
  replace_commands ere (map ctok_of ys) =
  Ok (map wtok_of (map (fun y => match y with STest a => STest (read a) | SAnd => SAnd | SOr => SOr
                                 | SNot => SNot | SOpen => SOpen | SClose => SClose end) ys)).
Proof.
  induction ys as [|y ys IH]; intros H; [reflexivity|]. cbn [map replace_commands].
  rewrite IH by (intros; apply H; right; assumption).
  destruct y; try reflexivity. cbn [ctok_of]. rewrite H by (left; reflexivity). reflexivity.
Qed.

Lemma replace_commands_fails ere args ys : In (STest args) ys ->
  (forall o, mk_test ere args <> Ok o) -> forall ws, replace_commands ere (map ctok_of ys) <> Ok ws.
Proof.
  induction ys as [|y ys IH]; intros Hi Hn ws; [destruct Hi|]. cbn [map replace_commands].
  destruct Hi as [->|Hi].
  - cbn [ctok_of]. destruct (mk_test ere args) as [e|o] eqn:E; [discriminate|]. elim (Hn o eq_refl).
  - destruct (match ctok_of y with CAnd => _ | _ => _ end); [discriminate|]. cbn [bind].
    destruct (replace_commands ere (map ctok_of ys)) eqn:E; [discriminate|].
    elim (IH Hi Hn _ eq_refl).
Qed.

Lemma replace_commands_errs ere ts ws : replace_commands ere ts = Ok ws ->
  forall args, In (CCmd args) ts -> exists o, mk_test ere args = Ok o.
Proof.
  intros H args Hi. pose proof (replace_commands_syms ere ts ws H) as F.
  induction F as [|t w ts ws Ht F IH]; [destruct Hi|].
  destruct Hi as [->|Hi]; [destruct w; try contradiction; eauto|].
  cbn [replace_commands] in H. destruct (match t with CAnd => _ | _ => _ end); [discriminate|].
  cbn [bind] in H. destruct (replace_commands ere ts) eqn:E; [discriminate|]. cbn [bind] in H.
  apply IH; [|exact Hi]. injection H as _ ->. reflexivity.
Qed.

(** An accepted condition that is complete is a condition over readable tests. *)
Lemma accepted_when ere x ws ts : parse_when ere x = Ok ws -> parse x = Ok ts -> complete ts ->
  exists cond : conds wobj, ws = map wtok_of (conds_syms cond).
Proof.
  intros Hw Hp Hc. unfold parse_when in Hw. rewrite Hp in Hw.
  destruct (accepted_complete x ts Hp Hc) as [e ->].
  set (read := fun args => match mk_test ere args with Ok o => o | Err _ => HasOption [] end).
  exists (conds_map read e).
  rewrite (replace_commands_read ere read) in Hw.
  - injection Hw as <-. rewrite (proj2 (syms_map read)). reflexivity.
  - intros args Hi. destruct (replace_commands_errs _ _ _ Hw args) as [o Ho].
    + apply in_map_iff. exists (STest args). auto.
    + unfold read. rewrite Ho. reflexivity.
Qed.

(** A written condition is read back, test by test. *)
Lemma written_when ere (read : list str -> wobj) e :
  (forall args, In (STest args) (conds_syms e) -> mk_test ere args = Ok (read args)) ->
  parse_when ere (written e) = Ok (map wtok_of (conds_syms (conds_map read e))).
Proof.
  intros H. unfold parse_when. rewrite parse_written.
  - rewrite (replace_commands_read ere read) by exact H. rewrite (proj2 (syms_map read)). reflexivity.
  - intros args Hi ->. specialize (H [] Hi). discriminate.
Qed.

(** ** The words of a zsh test *)

Definition zsh_test_words (e : zenv) (o : wobj) : option (list str) :=
  match o with
  | OptionIs options values ic any =>
      Some ([z_query e; s "option_is"] ++ opt_word ic (s "-i") ++ opt_word any (s "-a") ++
            [s "--"] ++ options ++ [s "--"] ++ values)
  | OptionMatch options regex ic any =>
      Some ([z_option_match e] ++ opt_word ic (s "-i") ++ opt_word any (s "-a") ++
            [s "--"] ++ options ++ [s "--"; regex])
  | HasOption options => Some ([z_query e; s "has_option"] ++ options)
  | _ => None
  end.

Lemma zsh_test_reads e o ws : zsh_test_words e o = Some ws -> posix_words (zsh_test e o) = Some ws.
Proof.
  destruct o; cbn [zsh_test_words zsh_test]; intros H; try discriminate; injection H as <-;
    apply posix_join_quoted.
Qed.

(** ** fish *)

Lemma fish_read_quote x rest w : ~ In BS x -> ~ In BTICK x ->
  fish_read FUnquoted w (quote x ++ rest) = fish_read FUnquoted (Some (wval w ++ x)) rest.
Proof.
  intros Hb Ht.
  assert (forall y, match y with [] => start w | _ => Some (wval (start w) ++ y) end = Some (wval w ++ y)) as Hs.
  { intros y. rewrite start_val. destruct y; cbn [wval]; [rewrite app_nil_r; reflexivity|reflexivity]. }
  destruct (quote_cases x) as [[Hf [Hn ->]]|[[_ [Hq ->]]|[[_ [_ [Hd ->]]]|[_ [_ [_ ->]]]]]].
  - apply fish_read_safe; assumption.
  - cbn [app]. rewrite <- app_assoc. cbn [app fish_read]. cbn [N.eqb Pos.eqb].
    rewrite fish_read_sq by assumption. rewrite Hs. reflexivity.
  - cbn [app]. rewrite <- app_assoc. cbn [app fish_read]. cbn [N.eqb Pos.eqb].
    rewrite fish_read_dq by assumption. rewrite Hs. reflexivity.
  - cbn [app]. rewrite <- app_assoc. cbn [app fish_read]. cbn [N.eqb Pos.eqb].
    rewrite fish_read_mixed by assumption. rewrite Hs. reflexivity.
Qed.

Lemma fish_join_quoted xs : (forall x, In x xs -> ~ In BS x /\ ~ In BTICK x) ->
  fish_words (join_quoted xs [SP]) = Some xs.
Proof.
  unfold fish_words, join_quoted. induction xs as [|x xs IH]; intros H; [reflexivity|].
  destruct (H x (or_introl eq_refl)) as [Hb Ht]. destruct xs as [|y xs].
  - cbn [map join]. rewrite <- (app_nil_r (quote x)), fish_read_quote by assumption. reflexivity.
  - cbn [map]. rewrite join_cons, fish_read_quote by assumption.
    cbn [app fish_read]. cbn [N.eqb Pos.eqb orb]. cbn [map] in IH.
    rewrite IH by (intros; apply H; right; assumption). reflexivity.
Qed.

Lemma fish_read_escaped x rest w : ~ In BTICK x ->
  fish_read FInDQ w (escape_in_double x ++ DQ :: rest) =
  fish_read FUnquoted (match x with [] => w | _ => Some (wval w ++ x) end) rest.
Proof.
  revert w. induction x as [|c x IH]; intros w H; [reflexivity|].
  unfold escape_in_double in *. cbn [map concat]. rewrite <- app_assoc.
  assert (forall r, fish_read FInDQ w ((if memc c [DQ; DOLLAR; BTICK; BS] then [BS; c] else [c]) ++ r) =
                    fish_read FInDQ (push w c) r) as Hc.
  { intros r. destruct (N.eqb_spec c DQ) as [->|H1]; [reflexivity|].
    destruct (N.eqb_spec c DOLLAR) as [->|H2]; [reflexivity|].
    destruct (N.eqb_spec c BTICK) as [->|H3]; [elim H; left; reflexivity|].
    destruct (N.eqb_spec c BS) as [->|H4]; [reflexivity|].
    assert (memc c [DQ; DOLLAR; BTICK; BS] = false) as ->.
    { apply memc_false. intros [E|[E|[E|[E|[]]]]]; congruence. }
    cbn [app fish_read]. rewrite (proj2 (N.eqb_neq _ _) H1), (proj2 (N.eqb_neq _ _) H4),
      (proj2 (N.eqb_neq _ _) H2). reflexivity. }
  rewrite Hc, IH by (intros Hi; apply H; right; exact Hi).
  rewrite push_val. destruct x; cbn [wval]; [reflexivity|]. rewrite <- app_assoc. reflexivity.
Qed.

Lemma escape_app x y : escape_in_double (x ++ y) = escape_in_double x ++ escape_in_double y.
Proof. unfold escape_in_double. rewrite map_app, concat_app. reflexivity. Qed.

Lemma escape_join l : escape_in_double (join [SP] l) = join [SP] (map escape_in_double l).
Proof.
  induction l as [|x l IH]; [reflexivity|]. destruct l as [|y l]; [reflexivity|].
  cbn [map] in *. rewrite !join_cons, !escape_app, IH. reflexivity.
Qed.

Lemma quote_chars c x : In c (quote x) -> In c x \/ c = SQ \/ c = DQ \/ c = BS.
Proof.
  destruct (quote_cases x) as [[_ [_ ->]]|[[_ [_ ->]]|[[_ [_ [_ ->]]]|[_ [_ [_ ->]]]]]].
  - auto.
  - cbn [app]. intros [<-|H]; [auto|]. apply in_app_or in H as [H|[<-|[]]]; auto.
  - cbn [app]. intros [<-|H]; [auto|]. apply in_app_or in H as [H|[<-|[]]]; [|auto].
    apply in_concat in H as (l & Hl & Hc). apply in_map_iff in Hl as (d & <- & Hd).
    unfold dq_esc in Hc. destruct (N.eqb_spec d BS) as [->|_]; [|destruct (N.eqb_spec d DOLLAR) as [->|_];
      [|destruct (N.eqb_spec d BTICK) as [->|_]]]; cbn in Hc; intuition (subst; auto).
  - cbn [app]. intros [<-|H]; [auto|]. apply in_app_or in H as [H|[<-|[]]]; [|auto].
    induction x as [|d x IH]; [destruct H|]. cbn [replace_c] in H. destruct (N.eqb_spec d SQ) as [->|Hd].
    + apply in_app_or in H as [H|H]; [cbn in H; intuition (subst; auto)|].
      destruct (IH H) as [?|?]; [left; right; assumption|auto].
    + destruct H as [<-|H]; [left; left; reflexivity|]. destruct (IH H) as [?|?]; [left; right; assumption|auto].
Qed.

Lemma join_chars c sep l : In c (join sep l) -> In c sep \/ exists x, In x l /\ In c x.
Proof.
  induction l as [|x l IH]; [intros []|]. destruct l as [|y l].
  - cbn [join]. intros H. right. exists x. split; [left; reflexivity|exact H].
  - rewrite join_cons. intros H. apply in_app_or in H as [H|H]; [right; exists x; split; [left; reflexivity|exact H]|].
    apply in_app_or in H as [H|H]; [auto|]. destruct (IH H) as [?|(z & Hz & Hc)]; [auto|].
    right. exists z. split; [right; exact Hz|exact Hc].
Qed.

Lemma condition_command prefix args : (forall x, In x args -> ~ In BS x /\ ~ In BTICK x) ->
  exists text, make_condition_command prefix args = prefix ++ [SP] ++ text /\
  exists inner, fish_words ([DQ] ++ text ++ [DQ]) = Some [inner] /\ fish_words inner = Some args.
Proof.
  intros H. eexists. split; [reflexivity|]. exists (join_quoted args [SP]). split.
  - unfold sp_join. rewrite <- (map_map quote escape_in_double), <- escape_join.
    change (join [SP] (map quote args)) with (join_quoted args [SP]).
    unfold fish_words. cbn [app fish_read]. cbn [N.eqb Pos.eqb]. rewrite fish_read_escaped.
    + destruct (join_quoted args [SP]); reflexivity.
    + intros Hi. unfold join_quoted in Hi. apply join_chars in Hi as [[E|[]]|(y & Hy & Hc)]; [discriminate|].
      apply in_map_iff in Hy as (x & <- & Hx). apply quote_chars in Hc as [Hc|[E|[E|E]]]; try discriminate.
      destruct (H x Hx). tauto.
  - apply fish_join_quoted, H.
Qed.
