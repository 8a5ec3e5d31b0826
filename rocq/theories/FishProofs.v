(** * Proofs about fish scripts: words with variables, cached conditions. *)
From Verif Require Import Base Value Algo StrUtils Shell SpecShell ShellProofs ShellParser When SpecWhen WhenProofs WhenTests Cli
  FishUtils SpecFish.
Open Scope list_scope.

Lemma Forall2_impl {A B} (P Q : A -> B -> Prop) l l' : (forall a b, P a b -> Q a b) -> Forall2 P l l' -> Forall2 Q l l'.
Proof. intros H. induction 1; constructor; auto. Qed.

(** ** Reading *)

Lemma emit_some w r ws : emit w r = Some ws -> exists ws', r = Some ws' /\ ws = match w with Some v => v :: ws' | None => ws' end.
Proof.
  destruct w as [v |]; cbn; intros H; [| eauto]. destruct r as [ws' |]; [| discriminate]. injection H as <-. eauto.
Qed.

Lemma fish_char_map (k k' : xmode -> option str -> option (list str)) (R : list str -> option (list str) -> Prop) m w c ws :
  (forall m w ws, k m w = Some ws -> R ws (k' m w)) ->
  (forall v ws r, R ws r -> R (v :: ws) (option_map (cons v) r)) ->
  fish_char k m w c = Some ws -> R ws (fish_char k' m w c).
Proof.
  intros Hk Hc H.
  assert (He : forall ws, emit w (k XUnquoted None) = Some ws -> R ws (emit w (k' XUnquoted None))).
  { intros ws' E. apply emit_some in E as (ws'' & E & ->). destruct w; cbn [emit]; auto. }
  destruct m; cbn [fish_char] in *; try discriminate;
    repeat match type of H with context [if ?b then _ else _] => destruct b end; try discriminate; auto.
Qed.

Lemma expand_app e x rest : forall m w ws, fish_expand e m w x = Some ws ->
  fish_expand e m w (x ++ SP :: rest) = option_map (app ws) (fish_line e rest).
Proof.
  induction x as [| c x IH]; intros m w ws H.
  - cbn [app]. destruct m as [| | | | | [|] name]; cbn [fish_expand] in *; try discriminate.
    + cbn [fish_char]. change (emit w (fish_line e rest) = option_map (app ws) (fish_line e rest)).
      destruct w as [v |]; cbn in H; injection H as <-; destruct (fish_line e rest); reflexivity.
    + change (is_word SP) with false. change (N.eqb SP LBRK) with false. cbv iota. destruct (e name) as [v |]; [| discriminate].
      injection H as <-. cbn [fish_char]. change (emit (Some (chars w ++ v)) (fish_line e rest) = option_map (app [chars w ++ v]) (fish_line e rest)).
      destruct (fish_line e rest); reflexivity.
  - cbn [app fish_expand] in *.
    assert (K : forall m w ws, fish_char (fun m w => fish_expand e m w x) m w c = Some ws ->
      fish_char (fun m w => fish_expand e m w (x ++ SP :: rest)) m w c = option_map (app ws) (fish_line e rest)).
    { intros m' w' ws' E. apply (fish_char_map _ _ (fun ws r => r = option_map (app ws) (fish_line e rest))) with (3 := E).
      - intros; now apply IH.
      - intros v ws'' r ->. destruct (fish_line e rest); reflexivity. }
    destruct m as [| | | | | q name]; try (now apply K).
    destruct (is_word c); [now apply IH |]. destruct (N.eqb c LBRK); [discriminate |]. destruct (e name); [| discriminate]. now apply K.
Qed.

Definition extends (e e' : env) : Prop := forall n v, e n = Some v -> e' n = Some v.
Lemma expand_mono e e' x : extends e e' -> forall m w ws, fish_expand e m w x = Some ws -> fish_expand e' m w x = Some ws.
Proof.
  intros He. induction x as [| c x IH]; intros m w ws H.
  - destruct m as [| | | | | [|] name]; cbn [fish_expand] in *; try discriminate; try assumption.
    destruct (e name) as [v |] eqn:E; [| discriminate]. now rewrite (He _ _ E).
  - cbn [fish_expand] in *.
    assert (K : forall m w ws, fish_char (fun m w => fish_expand e m w x) m w c = Some ws ->
      fish_char (fun m w => fish_expand e' m w x) m w c = Some ws).
    { intros m' w' ws' E. apply (fish_char_map _ _ (fun ws r => r = Some ws)) with (3 := E); [intros; now apply IH |].
      intros v ws'' r ->. reflexivity. }
    destruct m as [| | | | | q name]; try (now apply K).
    destruct (is_word c); [now apply IH |]. destruct (N.eqb c LBRK); [discriminate |].
    destruct (e name) as [v |] eqn:E; [| discriminate]. rewrite (He _ _ E). now apply K.
Qed.
Lemma line_mono e e' x ws : extends e e' -> fish_line e x = Some ws -> fish_line e' x = Some ws.
Proof. intros H. now apply expand_mono. Qed.

(** texts of one word each, then any text *)
Lemma line_words e : forall l vs suffix, l <> [] -> Forall2 (fun x v => fish_line e x = Some [v]) l vs ->
  fish_line e (join [SP] (l ++ suffix)) =
  match suffix with [] => Some vs | _ => option_map (app vs) (fish_line e (join [SP] suffix)) end.
Proof.
  induction l as [| x l IH]; intros vs suffix Hn H; [congruence |]. inversion H as [| ? v ? vs' Hx Hl E1 E2]; subst.
  destruct l as [| y l].
  - inversion Hl; subst. cbn [app]. destruct suffix as [| z suffix]; [exact Hx |].
    rewrite join_cons. cbn [app]. exact (expand_app e x _ _ _ _ Hx).
  - specialize (IH vs' suffix ltac:(discriminate) Hl). cbn [app] in *. rewrite join_cons. cbn [app].
    unfold fish_line at 1. rewrite (expand_app e x _ _ _ _ Hx), IH.
    destruct suffix as [| z suffix]; [reflexivity |]. destruct (fish_line e (join [SP] (z :: suffix))); reflexivity.
Qed.

(** ** Names of variables *)

Lemma expand_name e q name : forall acc w rest, forallb is_word name = true ->
  fish_expand e (XVar q acc) w (name ++ rest) = fish_expand e (XVar q (acc ++ name)) w rest.
Proof.
  induction name as [| c name IH]; intros acc w rest H; [now rewrite app_nil_r |].
  cbn [forallb] in H. apply andb_true_iff in H as [Hc H]. cbn [app fish_expand]. rewrite Hc, IH by assumption. now rewrite <- app_assoc.
Qed.
Lemma line_variable e name v : forallb is_word name = true -> e name = Some v -> fish_line e (DOLLAR :: name) = Some [v].
Proof.
  intros Hn Hv. unfold fish_line. cbn [fish_expand fish_char]. cbn [N.eqb Pos.eqb orb].
  rewrite <- (app_nil_r name), expand_name by assumption. cbn [app fish_expand]. now rewrite Hv.
Qed.

Lemma pad3_word n : forallb is_word (pad3 n) = true.
Proof.
  unfold pad3. rewrite forallb_app. apply andb_true_iff. split.
  - apply forallb_forall. intros c Hc. apply repeat_spec in Hc as ->. reflexivity.
  - apply forallb_forall. intros c Hc. unfold z_str in Hc.
    assert (Hd : forall d, In c (uint_str d) -> is_word c = true).
    { clear. induction d; cbn [uint_str]; [intros [] | ..]; (intros [<- | H]; [reflexivity | auto]). }
    destruct n as [| n]; cbn [Z.of_nat Z.to_int] in Hc; [now apply Hd in Hc |]. now apply Hd in Hc.
Qed.
Lemma int_digits_zeros k x : x <> [] -> int_digits false 0 (repeat 48%N k ++ x) = int_digits false 0 x \/ int_digits false 0 (repeat 48%N k ++ x) = int_digits true 0 x.
Proof.
  intros _. destruct k as [| k]; [now left |]. right. cbn [repeat app int_digits]. change (is_digit 48) with true. cbv iota.
  change (0 * 10 + Z.of_N (48 - 48))%Z with 0%Z. induction k as [| k IH]; [reflexivity |]. cbn [repeat app int_digits].
  change (is_digit 48) with true. cbv iota. change (0 * 10 + Z.of_N (48 - 48))%Z with 0%Z. exact IH.
Qed.
Lemma pad3_inj n n' : pad3 n = pad3 n' -> n = n'.
Proof.
  assert (K : forall n, int_digits false 0 (pad3 n) = Some (Z.of_nat n)).
  { clear. intros n. unfold pad3.
    assert (Hu : exists d, z_str (Z.of_nat n) = uint_str d /\ d <> Decimal.Nil /\ Z.of_N (Pos.of_uint d) = Z.of_nat n).
    { unfold z_str. destruct (Z.to_int (Z.of_nat n)) as [d | d] eqn:E.
      - exists d. split; [reflexivity |]. pose proof (DecimalZ.of_to (Z.of_nat n)) as H. rewrite E in H. split; [| exact H].
        intros ->. destruct n; [discriminate E |]. cbn [Z.of_nat Z.to_int] in E. injection E as E. now apply DecimalPos.Unsigned.to_uint_nonnil in E.
      - destruct n; discriminate E. }
    destruct Hu as (d & -> & Hd & <-).
    assert (Hx : uint_str d <> []) by (destruct d; cbn; congruence).
    destruct (int_digits_zeros (3 - List.length (uint_str d)) (uint_str d) Hx) as [-> | ->]; apply int_digits_uint; congruence. }
  intros E. pose proof (K n) as H. rewrite E, K in H. injection H as H. lia.
Qed.

(** ** The variable manager *)

Definition vars_ok (m : vars) : Prop :=
  v_counter m = List.length (v_values m) /\
  NoDup (map fst (v_values m)) /\
  forall i, i < List.length (v_values m) -> snd (nth i (v_values m) ([], [])) = v_name m ++ pad3 i.
Lemma new_vars_ok name : vars_ok (new_vars name).
Proof. split; [reflexivity |]. split; [constructor |]. cbn. lia. Qed.
Lemma lookup_in x l v : lookup x l = Some v -> In (x, v) l.
Proof.
  induction l as [| (k, u) l IH]; [discriminate |]. cbn [lookup]. destruct (str_eqb_spec k x) as [-> | _]; intros H; [injection H as <-; now left | right; auto].
Qed.
Lemma lookup_none x l : lookup x l = None -> ~ In x (map fst l).
Proof.
  induction l as [| (k, u) l IH]; [intros _ [] |]. cbn [lookup map fst]. destruct (str_eqb_spec k x) as [-> | Hn]; [discriminate |].
  intros H [E | E]; [congruence | now apply IH].
Qed.
Lemma lookup_nodup x v l : NoDup (map fst l) -> In (x, v) l -> lookup x l = Some v.
Proof.
  induction l as [| (k, u) l IH]; [intros _ [] |]. cbn [map fst lookup]. intros Hd [E | E].
  - injection E as -> ->. now rewrite str_eqb_refl.
  - inversion Hd; subst. destruct (str_eqb_spec k x) as [-> | _]; [| auto]. elim H1. now apply (in_map fst) in E.
Qed.

Lemma vars_add_spec m x : vars_ok m -> let (m', v) := vars_add m x in
  vars_ok m' /\ v_name m' = v_name m /\ (exists l, v_values m' = v_values m ++ l /\ (l = [] \/ exists u, l = [(x, u)])) /\
  exists u, v = DOLLAR :: u /\ lookup x (v_values m') = Some u.
Proof.
  intros (Hc & Hd & Hi). unfold vars_add. destruct (lookup x (v_values m)) as [u |] eqn:E.
  - split; [now split |]. split; [reflexivity |]. split; [exists []; rewrite app_nil_r; auto |]. eauto.
  - set (u := v_name m ++ pad3 (v_counter m)). cbn [v_name v_values].
    assert (Hd' : NoDup (map fst (v_values m ++ [(x, u)]))).
    { rewrite map_app. cbn. apply lookup_none in E. apply NoDup_rev in Hd. rewrite <- (rev_involutive (_ ++ [x])), rev_app_distr. apply NoDup_rev.
      cbn. constructor; [now rewrite <- in_rev | exact Hd]. }
    split; [| split; [reflexivity | split; [exists [(x, u)]; eauto |]]].
    + split; [cbn; rewrite app_length; cbn; lia |]. split; [exact Hd' |]. intros i Hl. cbn [v_values v_name] in *. rewrite app_length in Hl. cbn in Hl.
      destruct (Nat.eq_dec i (List.length (v_values m))) as [-> | Hn].
      * rewrite app_nth2, Nat.sub_diag by lia. cbn. unfold u. now rewrite Hc.
      * rewrite app_nth1 by lia. apply Hi. lia.
    + exists u. split; [reflexivity |]. apply lookup_nodup; [exact Hd' |]. apply in_or_app. right. now left.
Qed.

Lemma lookup_app_some x l l' v : lookup x l = Some v -> lookup x (l ++ l') = Some v.
Proof. induction l as [| (k, u) l IH]; [discriminate |]. cbn. destruct (str_eqb k x); auto. Qed.

Lemma vars_adds_spec values : forall m, vars_ok m -> let (m', vs) := vars_adds m values in
  vars_ok m' /\ v_name m' = v_name m /\ (exists l, v_values m' = v_values m ++ l /\ forall x, In x (map fst l) -> In x values) /\
  Forall2 (fun x v => exists u, v = DOLLAR :: u /\ lookup x (v_values m') = Some u) values vs.
Proof.
  induction values as [| x values IH]; intros m Hm; cbn [vars_adds].
  - split; [exact Hm |]. split; [reflexivity |]. split; [exists []; rewrite app_nil_r; split; [reflexivity | intros ? []] | constructor].
  - pose proof (vars_add_spec m x Hm) as Ha. destruct (vars_add m x) as [m1 v]. destruct Ha as (H1 & Hn & (l & El & Hl) & (u & -> & Hu)).
    specialize (IH m1 H1). destruct (vars_adds m1 values) as [m2 vs]. destruct IH as (H2 & Hn2 & (l2 & El2 & Hl2) & Hf).
    split; [exact H2 |]. split; [congruence |]. split.
    + exists (l ++ l2). rewrite El2, El, app_assoc. split; [reflexivity |]. intros y Hy. rewrite map_app in Hy. apply in_app_or in Hy as [Hy | Hy].
      * destruct Hl as [-> | (u' & ->)]; [destruct Hy |]. destruct Hy as [<- | []]. now left.
      * right. auto.
    + constructor; [| exact Hf]. exists u. split; [reflexivity |]. rewrite El2. now apply lookup_app_some.
Qed.

(** the variable of a value says which value it is *)
Lemma vars_inj m x y u : vars_ok m -> lookup x (v_values m) = Some u -> lookup y (v_values m) = Some u -> x = y.
Proof.
  intros (Hc & Hd & Hi) Hx Hy. apply lookup_in in Hx, Hy.
  apply (In_nth _ _ ([], [])) in Hx as (i & Li & Ei). apply (In_nth _ _ ([], [])) in Hy as (j & Lj & Ej).
  pose proof (Hi i Li) as Ui. pose proof (Hi j Lj) as Uj. rewrite Ei in Ui. rewrite Ej in Uj. cbn in Ui, Uj. rewrite Ui in Uj.
  apply app_inv_head, pad3_inj in Uj. subst j. rewrite Ei in Ej. now injection Ej.
Qed.
Lemma vars_name m x u : vars_ok m -> In (x, u) (v_values m) -> exists n, u = v_name m ++ pad3 n.
Proof.
  intros (Hc & Hd & Hi) Hx. apply (In_nth _ _ ([], [])) in Hx as (i & Li & Ei). exists i. rewrite <- (Hi i Li), Ei. reflexivity.
Qed.

(** ** Running *)

Lemma run_complete e l args lines : fish_line e l = Some (s "complete" :: args) ->
  run e (l :: lines) = option_map (fun '(e', r) => (e', args :: r)) (run e lines).
Proof.
  intros H. cbn [run]. rewrite H. destruct args as [| a [| b [| c [| d args]]]]; reflexivity.
Qed.
Lemma run_set e name value text lines : forallb is_word name = true -> name <> [] -> fish_line e text = Some [value] ->
  run e ((s "set -l " ++ name ++ s " " ++ text) :: lines) = run (set_var e name value) lines.
Proof.
  intros Hn Hne Ht. cbn [run].
  assert (Hw : fish_line e name = Some [name]).
  { unfold fish_line. destruct name as [| c name]; [congruence |]. clear Hne.
    assert (K : forall x w, forallb is_word x = true -> fish_expand e XUnquoted (Some w) x = Some [w ++ x]).
    { induction x as [| d x IH]; intros w Hx; [cbn; now rewrite app_nil_r |]. cbn [forallb] in Hx. apply andb_true_iff in Hx as [Hd Hx].
      assert (Hs : is_safe d = true) by (unfold is_safe; now rewrite Hd). apply safe_not_fish_special in Hs.
      cbn [fish_expand fish_char]. rewrite !(not_fspecial_neq d _ Hs) by reflexivity. cbn [orb]. rewrite Hs. unfold push.
      rewrite IH by exact Hx. now rewrite <- app_assoc. }
    cbn [forallb] in Hn. apply andb_true_iff in Hn as [Hd Hx].
    assert (Hs : is_safe c = true) by (unfold is_safe; now rewrite Hd). apply safe_not_fish_special in Hs.
    cbn [fish_expand fish_char]. rewrite !(not_fspecial_neq c _ Hs) by reflexivity. cbn [orb]. rewrite Hs. unfold push. now rewrite K. }
  assert (E : fish_line e (s "set -l " ++ name ++ s " " ++ text) = Some [s "set"; s "-l"; name; value]).
  { change (s "set -l " ++ name ++ s " " ++ text) with (join [SP] ([s "set"; s "-l"; name; text])).
    rewrite <- (app_nil_r [s "set"; s "-l"; name; text]). rewrite (line_words e _ [s "set"; s "-l"; name; value] []); [reflexivity | discriminate |].
    repeat constructor; assumption. }
  rewrite E. reflexivity.
Qed.

(** conditions that are one word *)
Definition one_word (e : env) (x : str) : Prop := exists v, fish_line e x = Some [v].

Lemma extends_trans e1 e2 e3 : extends e1 e2 -> extends e2 e3 -> extends e1 e3.
Proof. intros H1 H2 n v H. auto. Qed.
Lemma extends_set e e' name value : extends e e' -> e name = None -> extends e (set_var e' name value).
Proof.
  intros H Hn n v E. unfold set_var. destruct (str_eqb_spec n name) as [-> | _]; [congruence | auto].
Qed.

(** the assignments of a block *)
Lemma run_assignments e name (Hname : forallb is_word name = true) (Hnone : forall n, e (name ++ n) = None) : forall l,
  NoDup (map snd l) -> (forall x u, In (x, u) l -> (exists n, u = name ++ pad3 n) /\ one_word e x) ->
  forall e' lines, extends e e' ->
  exists e'', extends e e'' /\ (forall x u, In (x, u) l -> exists v, fish_line e x = Some [v] /\ e'' u = Some v) /\
    (forall n, (forall x, ~ In (x, n) l) -> e'' n = e' n) /\
    run e' (map (fun '(value, variable) => s "set -l " ++ variable ++ s " " ++ value) l ++ lines) = run e'' lines.
Proof.
  induction l as [| (x, u) l IH]; intros Hd Hl e' lines He.
  - exists e'. split; [exact He |]. split; [intros ? ? [] |]. split; [reflexivity |]. reflexivity.
  - destruct (Hl x u (or_introl eq_refl)) as [(n & ->) (v & Hv)]. cbn [map snd] in Hd. inversion Hd as [| ? ? Hnin Hd']; subst.
    destruct (IH Hd' (fun x' u' Hin => Hl x' u' (or_intror Hin)) (set_var e' (name ++ pad3 n) v) lines) as (e'' & H1 & H2 & H3 & H4).
    { apply extends_set; [exact He | apply Hnone]. }
    exists e''. split; [exact H1 |]. split; [| split].
    + intros x' u' [E | E]; [| now apply H2]. injection E as <- <-. exists v. split; [exact Hv |].
      rewrite H3; [unfold set_var; now rewrite str_eqb_refl |]. intros x' Hin. apply Hnin. now apply (in_map snd) in Hin.
    + intros n' Hn'. rewrite H3.
      * unfold set_var. destruct (str_eqb_spec n' (name ++ pad3 n)) as [-> | _]; [| reflexivity]. elim (Hn' x). now left.
      * intros x' Hin. apply (Hn' x'). now right.
    + cbn [map app]. rewrite (run_set e' (name ++ pad3 n) v x); [exact H4 | | | now apply (line_mono e)].
      * rewrite forallb_app, Hname, pad3_word. reflexivity.
      * intros E. apply app_eq_nil in E as [_ E].
        assert (K : List.length (pad3 n) >= 3) by (unfold pad3; rewrite app_length, repeat_length; lia). rewrite E in K. cbn in K. lia.
Qed.

(** ** Commands *)

(** what is behind the conditions *)
Definition tail_words (c : complete_command) : list str :=
  let flags := flags_of (cc_flags c) in
  flat_map (with_option (s "-s")) (cc_short c)
  ++ flat_map (with_option (s "-l")) (cc_long c)
  ++ flat_map (with_option (s "-o")) (cc_old c)
  ++ match cc_description c with Some x => with_option (s "-d") x | None => [] end
  ++ match flags with [] => [] | _ => [s "-" ++ concat (sort_strs flags)] end
  ++ match cc_arguments c with Some x => with_option (s "-a") x | None => [] end.
Definition dash_n (x : str) : list str := [s "-n"; x].
Lemma command_line_words c conditions : cc_command c = Some (FString (s "$prog") true) ->
  command_line c conditions =
  join [SP] ((s "complete" :: s "-c" :: s "$prog" :: s "-n" :: s "$P" :: flat_map dash_n conditions) ++ tail_words c).
Proof.
  intros H. unfold command_line, get. destruct c as [co d cs a sh lo ol f]. cbn [cc_command] in H. rewrite H.
  unfold set_conditions, tail_words. cbn [cc_command cc_conditions cc_flags cc_short cc_long cc_old cc_description cc_arguments flat_map].
  f_equal. unfold with_option at 1 2. cbn [f_escape app].
  assert (E : flat_map (with_option (s "-n")) (map (fun x => FString x true) conditions) = flat_map dash_n conditions).
  { induction conditions as [| x l IH]; [reflexivity |]. cbn [map flat_map]. now rewrite IH. }
  rewrite E. reflexivity.
Qed.

Lemma forall2_dash_n e l vs : Forall2 (fun x v => fish_line e x = Some [v]) l vs ->
  Forall2 (fun x v => fish_line e x = Some [v]) (flat_map dash_n l) (flat_map dash_n vs).
Proof. induction 1 as [| x v l vs H _ IH]; [constructor |]. cbn [flat_map dash_n app]. constructor; [reflexivity |]. now constructor. Qed.

Lemma command_line_read e c conditions vs prog p : cc_command c = Some (FString (s "$prog") true) ->
  e (s "prog") = Some prog -> e (s "P") = Some p -> Forall2 (fun x v => fish_line e x = Some [v]) conditions vs ->
  fish_line e (command_line c conditions) =
  match tail_words c with
  | [] => Some (s "complete" :: s "-c" :: prog :: s "-n" :: p :: flat_map dash_n vs)
  | _ => option_map (app (s "complete" :: s "-c" :: prog :: s "-n" :: p :: flat_map dash_n vs)) (fish_line e (join [SP] (tail_words c)))
  end.
Proof.
  intros Hc Hprog Hp Hf. rewrite command_line_words by exact Hc. apply line_words; [discriminate |].
  constructor; [reflexivity |]. constructor; [reflexivity |]. constructor; [now apply (line_variable e (s "prog")) |]. constructor; [reflexivity |].
  constructor; [now apply (line_variable e (s "P")) |]. now apply forall2_dash_n.
Qed.

(** ** Cached conditions *)

Definition command_ok (e : env) (c : complete_command) : Prop :=
  cc_command c = Some (FString (s "$prog") true) /\ forall x, In x (cc_conditions c) -> one_word e (condition_text x).

Lemma generator_lines_inline m cmds : generator_lines true m cmds = (m, map (fun c => command_line c (map condition_text (cc_conditions c))) cmds).
Proof. induction cmds as [| c cmds IH]; [reflexivity |]. cbn [generator_lines map]. now rewrite IH. Qed.

Lemma generator_lines_cached cmds : forall m, vars_ok m -> let (m', lines) := generator_lines false m cmds in
  vars_ok m' /\ v_name m' = v_name m /\
  (exists l, v_values m' = v_values m ++ l /\ forall x, In x (map fst l) -> exists c y, In c cmds /\ In y (cc_conditions c) /\ x = condition_text y) /\
  Forall2 (fun c line => exists vs, line = command_line c vs /\
      Forall2 (fun x v => exists u, v = DOLLAR :: u /\ lookup x (v_values m') = Some u) (map condition_text (cc_conditions c)) vs) cmds lines.
Proof.
  induction cmds as [| c cmds IH]; intros m Hm; cbn [generator_lines].
  - split; [exact Hm |]. split; [reflexivity |]. split; [exists []; rewrite app_nil_r; split; [reflexivity | intros ? []] | constructor].
  - pose proof (vars_adds_spec (map condition_text (cc_conditions c)) m Hm) as Ha.
    destruct (vars_adds m (map condition_text (cc_conditions c))) as [m1 vs]. destruct Ha as (H1 & Hn1 & (l1 & E1 & Hl1) & Hf1).
    specialize (IH m1 H1). destruct (generator_lines false m1 cmds) as [m2 lines]. destruct IH as (H2 & Hn2 & (l2 & E2 & Hl2) & Hf2).
    split; [exact H2 |]. split; [congruence |]. split.
    + exists (l1 ++ l2). rewrite E2, E1, app_assoc. split; [reflexivity |]. intros x Hx. rewrite map_app in Hx. apply in_app_or in Hx as [Hx | Hx].
      * apply Hl1 in Hx. apply in_map_iff in Hx as (y & <- & Hy). exists c, y. split; [now left |]. auto.
      * apply Hl2 in Hx as (c' & y & Hc & Hy & ->). exists c', y. split; [now right |]. auto.
    + constructor; [| exact Hf2]. exists vs. split; [reflexivity |]. eapply Forall2_impl; [| exact Hf1]. intros x v (u & -> & Hu). exists u.
      split; [reflexivity |]. rewrite E2. now apply lookup_app_some.
Qed.

Lemma run_commands e prog p : e (s "prog") = Some prog -> e (s "P") = Some p ->
  forall cmds, (forall c, In c cmds -> command_ok e c) ->
  forall rest e2 r, run e (map (fun c => command_line c (map condition_text (cc_conditions c))) cmds ++ rest) = Some (e2, r) ->
  exists r1 r2, r = r1 ++ r2 /\ run e rest = Some (e2, r2) /\
  forall e'' lines rest', extends e e'' ->
    Forall2 (fun c line => exists vs, line = command_line c vs /\
      Forall2 (fun x v => exists w, fish_line e x = Some [w] /\ fish_line e'' v = Some [w]) (map condition_text (cc_conditions c)) vs) cmds lines ->
    run e'' (lines ++ rest') = option_map (fun '(e3, r3) => (e3, r1 ++ r3)) (run e'' rest').
Proof.
  intros Hprog Hp. induction cmds as [| c cmds IH]; intros Hok rest e2 r H.
  - exists [], r. split; [reflexivity |]. split; [exact H |]. intros e'' lines rest' He Hf. inversion Hf; subst. cbn [app].
    destruct (run e'' rest') as [(e3, r3) |]; reflexivity.
  - cbn [map app] in H. destruct (Hok c (or_introl eq_refl)) as [Hc Hw].
    assert (Hv : exists vs, Forall2 (fun x v => fish_line e x = Some [v]) (map condition_text (cc_conditions c)) vs).
    { clear - Hw. induction (cc_conditions c) as [| x l IHl]; [exists []; constructor |]. destruct (Hw x (or_introl eq_refl)) as [v Hv].
      destruct IHl as [vs Hvs]; [intros y Hy; apply Hw; now right |]. exists (v :: vs). now constructor. }
    destruct Hv as [vs Hvs]. pose proof (command_line_read e c _ vs prog p Hc Hprog Hp Hvs) as Hr.
    assert (Ha : exists args, fish_line e (command_line c (map condition_text (cc_conditions c))) = Some (s "complete" :: args)).
    { rewrite Hr. destruct (tail_words c) as [| z l]; [eexists; reflexivity |]. clear IH.
      destruct (fish_line e (join [SP] (z :: l))) as [ws |] eqn:E; [eexists; reflexivity |]. exfalso. cbn [run] in H. rewrite Hr in H. discriminate H. }
    destruct Ha as [args Ha]. rewrite (run_complete _ _ _ _ Ha) in H.
    destruct (run e (map (fun c => command_line c (map condition_text (cc_conditions c))) cmds ++ rest)) as [(e3, r3) |] eqn:E; [| discriminate].
    injection H as -> <-. destruct (IH (fun c' H' => Hok c' (or_intror H')) rest e2 r3 E) as (r1 & r2 & -> & H2 & H3).
    exists (args :: r1), r2. split; [reflexivity |]. split; [exact H2 |]. intros e'' lines rest' He Hf. inversion Hf as [| ? line ? lines' (us & -> & Hus) Hf']; subst.
    cbn [app]. assert (Hvs' : Forall2 (fun x v => fish_line e'' x = Some [v]) us vs).
    { clear - Hvs Hus. revert vs Hvs. induction Hus as [| x u l us (w & Hx & Hu) _ IHl]; intros vs Hvs; inversion Hvs; subst; constructor; [congruence | auto]. }
    pose proof (command_line_read e'' c us vs prog p Hc (He _ _ Hprog) (He _ _ Hp) Hvs') as Hr'.
    assert (Ha' : fish_line e'' (command_line c us) = Some (s "complete" :: args)).
    { rewrite Hr'. rewrite Hr in Ha. destruct (tail_words c) as [| z l]; [exact Ha |].
      destruct (fish_line e (join [SP] (z :: l))) as [ws |] eqn:E'; [| discriminate]. rewrite (line_mono e e'' _ _ He E'). exact Ha. }
    rewrite (run_complete _ _ _ _ Ha'), (H3 e'' lines' rest' He Hf'). destruct (run e'' rest') as [(e4, r4) |]; reflexivity.
Qed.

Lemma in_nodup_snd m : vars_ok m -> NoDup (map snd (v_values m)).
Proof.
  intros (Hc & Hd & Hi). apply (NoDup_nth _ []). intros i j Li Lj E. rewrite map_length in Li, Lj.
  change ([] : str) with (snd (([], []) : str * str)) in E. rewrite !map_nth, (Hi i Li), (Hi j Lj) in E. now apply app_inv_head, pad3_inj in E.
Qed.

Theorem cached_same e prog p : e (s "prog") = Some prog -> e (s "P") = Some p -> (forall n, e (s "C" ++ n) = None) ->
  forall blocks, (forall cmds c, In cmds blocks -> In c cmds -> command_ok e c) ->
  forall e2 r, run e (flat_map (generator_block true) blocks) = Some (e2, r) ->
  forall e1, extends e e1 -> exists e3, run e1 (flat_map (generator_block false) blocks) = Some (e3, r).
Proof.
  intros Hprog Hp Hnone. induction blocks as [| cmds blocks IH]; intros Hok e2 r H e1 He1.
  - cbn in H. injection H as _ <-. exists e1. reflexivity.
  - cbn [flat_map] in *. unfold generator_block at 1 in H. rewrite generator_lines_inline in H. cbn [get_lines map v_values new_vars app] in H.
    destruct (run_commands e prog p Hprog Hp cmds (fun c Hc => Hok cmds c (or_introl eq_refl) Hc) _ _ _ H) as (r1 & r2 & -> & H2 & H3).
    unfold generator_block at 1. pose proof (generator_lines_cached cmds (new_vars (s "C")) (new_vars_ok _)) as Hg.
    destruct (generator_lines false (new_vars (s "C")) cmds) as [m lines]. destruct Hg as (Hm & Hn & (l & El & Hl) & Hf). cbn [v_values new_vars app] in El.
    cbn [v_name new_vars] in Hn. rewrite <- app_assoc.
    destruct (run_assignments e (s "C") eq_refl Hnone (v_values m) (in_nodup_snd m Hm)) with (e' := e1) (lines := lines ++ flat_map (generator_block false) blocks)
      as (e'' & He'' & Hv & _ & Hrun); [| exact He1 |].
    { intros x u Hx. split; [apply vars_name in Hx; [| exact Hm]; now rewrite Hn in Hx |]. rewrite El in Hx. apply (in_map fst) in Hx.
      apply Hl in Hx as (c & y & Hc & Hy & Hxy). cbn in Hxy. subst x. now apply (Hok cmds c (or_introl eq_refl) Hc). }
    unfold get_lines. rewrite Hrun. rewrite (H3 e'' lines _ He'').
    + destruct (IH (fun cmds' c Hc => Hok cmds' c (or_intror Hc)) e2 r2 H2 e'' He'') as [e3 H4]. rewrite H4. eexists. reflexivity.
    + eapply Forall2_impl; [| exact Hf]. intros c line (vs & -> & Hvs). exists vs. split; [reflexivity |].
      eapply Forall2_impl; [| exact Hvs]. intros x v (u & -> & Hu). apply lookup_in in Hu. destruct (Hv x u Hu) as (w & Hw & Hw').
      exists w. split; [exact Hw |]. apply line_variable; [| exact Hw']. apply vars_name in Hu as [n ->]; [| exact Hm]. rewrite Hn, forallb_app, pad3_word. reflexivity.
Qed.
