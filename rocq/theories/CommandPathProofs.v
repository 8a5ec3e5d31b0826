(** * Proofs: what the code for commands does to PATH. *)
From Verif Require Import Base Value DictSource Shell SpecShell ShellProofs WhenTests SpecChoices ChoicesZsh SchemeValidator SpecValid SpecScheme SchemeForms SchemeKinds CommandPath SpecCommandPath.
Open Scope list_scope.

(** ** Quoted texts in commands with variables (as in [ShellProofs]) *)
Section Posix.
Variable env : str -> option str.
Lemma sh_expand_sq x rest w :
  ~ In SQ x -> sh_expand env (VMode InSQ) w (x ++ SQ :: rest) =
               sh_expand env (VMode Unquoted) (match x with [] => w | _ => Some (wval w ++ x) end) rest.
Proof.
  revert w; induction x as [|c x IH]; intros w H.
  - cbn. reflexivity.
  - cbn [app sh_expand]. destruct (N.eqb_spec c SQ) as [->|Hc]; [cbn in H; tauto|].
    rewrite IH by (cbn in H; tauto). rewrite push_val.
    destruct x; cbn [wval]; [reflexivity|]. rewrite <- app_assoc. reflexivity.
Qed.
Lemma sh_expand_sq_quoted x rest w :
  ~ In SQ x ->
  sh_expand env (VMode Unquoted) w (SQ :: x ++ SQ :: rest) = sh_expand env (VMode Unquoted) (Some (wval w ++ x)) rest.
Proof.
  intros H. cbn [sh_expand]. rewrite N.eqb_refl, start_val, sh_expand_sq by exact H.
  destruct x; [rewrite app_nil_r|]; reflexivity.
Qed.
Lemma sh_expand_dq x rest w :
  ~ In DQ x -> sh_expand env (VMode InDQ) w (concat (map dq_esc x) ++ DQ :: rest) =
               sh_expand env (VMode Unquoted) (match x with [] => w | _ => Some (wval w ++ x) end) rest.
Proof.
  revert w; induction x as [|c x IH]; intros w H.
  - reflexivity.
  - assert (Hs : forall w, sh_expand env (VMode InDQ) w (dq_esc c ++ concat (map dq_esc x) ++ DQ :: rest)
                 = sh_expand env (VMode InDQ) (push w c) (concat (map dq_esc x) ++ DQ :: rest)).
    { intros w'. unfold dq_esc at 1.
      destruct (N.eqb_spec c BS) as [->|Hb]; [reflexivity|].
      destruct (N.eqb_spec c DOLLAR) as [->|Hd]; [reflexivity|].
      destruct (N.eqb_spec c BTICK) as [->|Ht]; [reflexivity|].
      cbn [app sh_expand].
      destruct (N.eqb_spec c DQ) as [->|Hq]; [cbn in H; tauto|].
      rewrite (proj2 (N.eqb_neq _ _) Hb), (proj2 (N.eqb_neq _ _) Hd),
              (proj2 (N.eqb_neq _ _) Ht). reflexivity. }
    cbn [map concat]. rewrite <- app_assoc, Hs, IH by (cbn in H; tauto).
    rewrite push_val. destruct x; cbn [wval]; [reflexivity|]. rewrite <- app_assoc. reflexivity.
Qed.
Lemma sh_expand_dq_quoted x rest w :
  ~ In DQ x ->
  sh_expand env (VMode Unquoted) w (DQ :: concat (map dq_esc x) ++ DQ :: rest)
  = sh_expand env (VMode Unquoted) (Some (wval w ++ x)) rest.
Proof.
  intros H. cbn [sh_expand]. cbn. rewrite start_val, sh_expand_dq by exact H.
  destruct x; [rewrite app_nil_r|]; reflexivity.
Qed.
Lemma sh_expand_mixed x rest w :
  sh_expand env (VMode InSQ) w (replace_c SQ [SQ; DQ; SQ; DQ; SQ] x ++ SQ :: rest) =
  sh_expand env (VMode Unquoted) (match x with [] => w | _ => Some (wval w ++ x) end) rest.
Proof.
  revert w; induction x as [|c x IH]; intros w.
  - reflexivity.
  - cbn [replace_c]. destruct (N.eqb_spec c SQ) as [->|Hc].
    + rewrite <- app_assoc. cbn [app].
      cbn [sh_expand]. cbn. rewrite !start_val, push_val. cbn [start wval]. rewrite IH.
      destruct x; cbn [wval]; [reflexivity|]. rewrite <- app_assoc. reflexivity.
    + cbn [app sh_expand]. rewrite (proj2 (N.eqb_neq _ _) Hc), IH, push_val.
      destruct x; cbn [wval]; [reflexivity|]. rewrite <- app_assoc. reflexivity.
Qed.
Lemma sh_expand_mixed_quoted x rest w :
  sh_expand env (VMode Unquoted) w (SQ :: replace_c SQ [SQ; DQ; SQ; DQ; SQ] x ++ SQ :: rest)
  = sh_expand env (VMode Unquoted) (Some (wval w ++ x)) rest.
Proof.
  cbn [sh_expand]. rewrite N.eqb_refl, start_val, sh_expand_mixed.
  destruct x; [rewrite app_nil_r|]; reflexivity.
Qed.
Lemma sh_expand_safe x rest w :
  forallb is_safe x = true -> x <> [] ->
  sh_expand env (VMode Unquoted) w (x ++ rest) = sh_expand env (VMode Unquoted) (Some (wval w ++ x)) rest.
Proof.
  revert w; induction x as [|c x IH]; intros w H Hn; [congruence|].
  cbn [forallb] in H. apply andb_true_iff in H as [Hc Hx].
  pose proof (safe_not_special c Hc) as Hs.
  cbn [app sh_expand].
  rewrite !(not_special_neq c _ Hs) by reflexivity.
  cbn [orb]. rewrite Hs. rewrite push_val.
  destruct x as [|d x].
  - reflexivity.
  - rewrite IH; [|exact Hx|discriminate].
    cbn [wval]. rewrite <- app_assoc. reflexivity.
Qed.
Lemma sh_expand_quote x rest w :
  sh_expand env (VMode Unquoted) w (quote x ++ rest) = sh_expand env (VMode Unquoted) (Some (wval w ++ x)) rest.
Proof.
  destruct (quote_cases x) as [[Hf [Hn ->]]|[[_ [Hs ->]]|[[_ [_ [Hd ->]]]|[_ [_ [_ ->]]]]]].
  - apply sh_expand_safe; assumption.
  - cbn [app]. rewrite <- app_assoc. apply sh_expand_sq_quoted; exact Hs.
  - cbn [app]. rewrite <- app_assoc. apply sh_expand_dq_quoted; exact Hd.
  - cbn [app]. rewrite <- app_assoc. apply sh_expand_mixed_quoted.
Qed.
End Posix.
Section Fish.
Variable env : str -> option (list str).
Lemma fish_expand_safe x rest w :
  forallb is_safe x = true -> x <> [] ->
  fish_expand env (WMode FUnquoted) w (x ++ rest) = fish_expand env (WMode FUnquoted) (Some (wval w ++ x)) rest.
Proof.
  revert w; induction x as [|c x IH]; intros w H Hn; [congruence|].
  cbn [forallb] in H. apply andb_true_iff in H as [Hc Hx].
  pose proof (safe_not_fish_special c Hc) as Hs.
  cbn [app fish_expand].
  rewrite !(not_fspecial_neq c _ Hs) by reflexivity.
  cbn [orb]. rewrite Hs, push_val.
  destruct x as [|d x].
  - reflexivity.
  - rewrite IH; [|exact Hx|discriminate].
    cbn [wval]. rewrite <- app_assoc. reflexivity.
Qed.
Lemma fish_expand_sq x rest w :
  ~ In SQ x -> ~ In BS x ->
  fish_expand env (WMode FInSQ) w (x ++ SQ :: rest) =
  fish_expand env (WMode FUnquoted) (match x with [] => w | _ => Some (wval w ++ x) end) rest.
Proof.
  revert w; induction x as [|c x IH]; intros w H Hb; [reflexivity|].
  cbn [app fish_expand]. destruct (N.eqb_spec c SQ) as [->|Hc]; [cbn in H; tauto|].
  destruct (N.eqb_spec c BS) as [->|Hc2]; [cbn in Hb; tauto|].
  rewrite IH by (cbn in H, Hb; tauto). rewrite push_val.
  destruct x; cbn [wval]; [reflexivity|]. rewrite <- app_assoc. reflexivity.
Qed.
Lemma fish_expand_dq x rest w :
  ~ In DQ x -> ~ In BTICK x ->
  fish_expand env (WMode FInDQ) w (concat (map dq_esc x) ++ DQ :: rest) =
  fish_expand env (WMode FUnquoted) (match x with [] => w | _ => Some (wval w ++ x) end) rest.
Proof.
  revert w; induction x as [|c x IH]; intros w H Ht.
  - reflexivity.
  - assert (Hs : forall w, fish_expand env (WMode FInDQ) w (dq_esc c ++ concat (map dq_esc x) ++ DQ :: rest)
                 = fish_expand env (WMode FInDQ) (push w c) (concat (map dq_esc x) ++ DQ :: rest)).
    { intros w'. unfold dq_esc at 1.
      destruct (N.eqb_spec c BS) as [->|Hb]; [reflexivity|].
      destruct (N.eqb_spec c DOLLAR) as [->|Hd]; [reflexivity|].
      destruct (N.eqb_spec c BTICK) as [->|Hk]; [cbn in Ht; tauto|].
      cbn [app fish_expand].
      destruct (N.eqb_spec c DQ) as [->|Hq]; [cbn in H; tauto|].
      rewrite (proj2 (N.eqb_neq _ _) Hb), (proj2 (N.eqb_neq _ _) Hd). reflexivity. }
    cbn [map concat]. rewrite <- app_assoc, Hs, IH by (cbn in H, Ht; tauto).
    rewrite push_val. destruct x; cbn [wval]; [reflexivity|]. rewrite <- app_assoc. reflexivity.
Qed.
Lemma fish_expand_mixed x rest w :
  ~ In BS x ->
  fish_expand env (WMode FInSQ) w (replace_c SQ [SQ; DQ; SQ; DQ; SQ] x ++ SQ :: rest) =
  fish_expand env (WMode FUnquoted) (match x with [] => w | _ => Some (wval w ++ x) end) rest.
Proof.
  revert w; induction x as [|c x IH]; intros w Hb.
  - reflexivity.
  - cbn [replace_c]. destruct (N.eqb_spec c SQ) as [->|Hc].
    + rewrite <- app_assoc. cbn [app].
      cbn [fish_expand]. cbn. rewrite !start_val, push_val. cbn [start wval].
      rewrite IH by (cbn in Hb; tauto).
      destruct x; cbn [wval]; [reflexivity|]. rewrite <- app_assoc. reflexivity.
    + cbn [app fish_expand]. destruct (N.eqb_spec c BS) as [->|Hc2]; [cbn in Hb; tauto|].
      rewrite (proj2 (N.eqb_neq _ _) Hc), IH, push_val by (cbn in Hb; tauto).
      destruct x; cbn [wval]; [reflexivity|]. rewrite <- app_assoc. reflexivity.
Qed.
Lemma fish_expand_quote x rest w : ~ In BS x -> ~ In BTICK x ->
  fish_expand env (WMode FUnquoted) w (quote x ++ rest) = fish_expand env (WMode FUnquoted) (Some (wval w ++ x)) rest.
Proof.
  intros Hb Ht.
  assert (forall y, match y with [] => start w | _ => Some (wval (start w) ++ y) end = Some (wval w ++ y)) as Hs.
  { intros y. rewrite start_val. destruct y; cbn [wval]; [rewrite app_nil_r; reflexivity|reflexivity]. }
  destruct (quote_cases x) as [[Hf [Hn ->]]|[[_ [Hq ->]]|[[_ [_ [Hd ->]]]|[_ [_ [_ ->]]]]]].
  - apply fish_expand_safe; assumption.
  - cbn [app]. rewrite <- app_assoc. cbn [app fish_expand]. cbn [N.eqb Pos.eqb].
    rewrite fish_expand_sq by assumption. rewrite Hs. reflexivity.
  - cbn [app]. rewrite <- app_assoc. cbn [app fish_expand]. cbn [N.eqb Pos.eqb].
    rewrite fish_expand_dq by assumption. rewrite Hs. reflexivity.
  - cbn [app]. rewrite <- app_assoc. cbn [app fish_expand]. cbn [N.eqb Pos.eqb].
    rewrite fish_expand_mixed by assumption. rewrite Hs. reflexivity.
Qed.
End Fish.

(** ** Bash and zsh *)
Lemma variable_path old w rest : sh_expand (only_path old) (VMode Unquoted) (Some w) (s """$PATH""" ++ rest) = sh_expand (only_path old) (VMode Unquoted) (Some (w ++ old)) rest.
Proof. reflexivity. Qed.
Lemma colon_read old w rest : sh_expand (only_path old) (VMode Unquoted) (Some w) (COLON :: rest) = sh_expand (only_path old) (VMode Unquoted) (Some (w ++ [COLON])) rest.
Proof. reflexivity. Qed.
Lemma head_read old rest : sh_expand (only_path old) (VMode Unquoted) None (s "local -x PATH=" ++ rest) =
  emit (Some (s "local")) (emit (Some (s "-x")) (sh_expand (only_path old) (VMode Unquoted) (Some (s "PATH=")) rest)).
Proof. reflexivity. Qed.
Lemma assigned_value old rest v : sh_expand (only_path old) (VMode Unquoted) (Some (s "PATH=")) rest = Some [s "PATH=" ++ v] ->
  posix_path_after old (s "local -x PATH=" ++ rest) = Some v.
Proof. intros H. unfold posix_path_after. rewrite head_read, H. reflexivity. Qed.
Lemma expand_end old w : sh_expand (only_path old) (VMode Unquoted) (Some w) [] = Some [w].
Proof. reflexivity. Qed.

Theorem posix_path_right o old : path_accepted (path o) (path_append o) (path_prepend o) ->
  match posix_path_code o with
  | Some code => posix_path_after old code = Some (path_meant (path o) (path_append o) (path_prepend o) old)
  | None => path_meant (path o) (path_append o) (path_prepend o) old = old
  end.
Proof.
  destruct o as [p a b]. cbn [path path_append path_prepend]. intros (H1 & H2 & H3 & H4). unfold posix_path_code. cbn [path path_append path_prepend].
  assert (forall x, x <> Some [] -> given x = x) as G by (intros [[|]|] Hx; [destruct (Hx eq_refl) | reflexivity | reflexivity]).
  rewrite !G by assumption. destruct p as [p |].
  - apply assigned_value. rewrite <- (app_nil_r (quote p)), sh_expand_quote, expand_end. reflexivity.
  - destruct a as [a |], b as [b |]; unfold path_meant.
    + apply assigned_value. rewrite sh_expand_quote. change (s ":""$PATH"":" ++ quote a) with (COLON :: s """$PATH""" ++ COLON :: quote a).
      rewrite colon_read, variable_path, colon_read. rewrite <- (app_nil_r (quote a)), sh_expand_quote, expand_end. cbn [wval]. rewrite <- !app_assoc. reflexivity.
    + change (s "local -x PATH=""$PATH"":" ++ quote a) with (s "local -x PATH=" ++ s """$PATH""" ++ COLON :: quote a). apply assigned_value.
      rewrite variable_path, colon_read. rewrite <- (app_nil_r (quote a)), sh_expand_quote, expand_end. cbn [wval]. rewrite <- !app_assoc. reflexivity.
    + apply assigned_value. rewrite sh_expand_quote. change (s ":""$PATH""") with (COLON :: s """$PATH""" ++ []). rewrite colon_read, variable_path, expand_end. cbn [wval]. rewrite <- !app_assoc. now rewrite app_nil_r.
    + cbn. apply app_nil_r.
Qed.

(** ** fish *)
Definition fenv (old : list str) : str -> option (list str) := fun name => if str_eqb name (s "PATH") then Some old else None.
Definition plain_path (x : str) : Prop := ~ In BS x /\ ~ In BTICK x.
Lemma plain_pieces x p : plain_path x -> In p (split_c COLON x) -> plain_path p.
Proof.
  intros [H1 H2] Hp. assert (forall c, In c p -> In c x) as K.
  { clear H1 H2. revert p Hp. induction x as [| d x IH]; intros p Hp c Hc; [destruct Hp as [<- | []]; destruct Hc |].
    cbn [split_c] in Hp. destruct (split_c COLON x) as [| w ws] eqn:E; [destruct (split_c_nonnil _ _ E) |].
    destruct (N.eqb d COLON).
    - destruct Hp as [<- | Hp]; [destruct Hc | right; exact (IH p Hp c Hc)].
    - destruct Hp as [<- | Hp]; [destruct Hc as [<- | Hc]; [now left | right; exact (IH w (or_introl eq_refl) c Hc)] | right; exact (IH p (or_intror Hp) c Hc)]. }
  split; intros H; auto.
Qed.
Definition ends_word (rest : str) : Prop := rest = [] \/ exists r, rest = SP :: r.
Lemma fish_list env xs rest : xs <> [] -> (forall x, In x xs -> plain_path x) -> ends_word rest ->
  fish_expand env (WMode FUnquoted) None (join_quoted xs [SP] ++ rest) =
  option_map (app xs) (match rest with [] => Some [] | _ :: r => fish_expand env (WMode FUnquoted) None r end).
Proof.
  unfold join_quoted. induction xs as [| x xs IH]; intros Hn H Hr; [congruence |]. destruct (H x (or_introl eq_refl)) as [Hb Ht]. destruct xs as [| y xs].
  - cbn [map join]. rewrite fish_expand_quote by assumption. destruct Hr as [-> | (r & ->)]; [reflexivity |].
    cbn [fish_expand]. change (N.eqb SP SQ) with false. change (N.eqb SP DQ) with false. change (N.eqb SP SP) with true. cbn [orb emit wval app]. destruct (fish_expand env (WMode FUnquoted) None r); reflexivity.
  - cbn [map]. rewrite join_cons. rewrite <- !app_assoc. rewrite fish_expand_quote by assumption.
    cbn [app]. cbn [fish_expand]. change (N.eqb SP SQ) with false. change (N.eqb SP DQ) with false. change (N.eqb SP SP) with true. cbn [orb]. cbn [map] in IH.
    rewrite IH; [| discriminate | intros z Hz; apply H; now right | exact Hr]. cbn [emit wval app].
    destruct (match rest with [] => Some [] | _ :: r => fish_expand env (WMode FUnquoted) None r end); reflexivity.
Qed.
Lemma split_nonnil c x : split_c c x <> [].
Proof. apply split_c_nonnil. Qed.
Lemma set_head env rest : fish_expand env (WMode FUnquoted) None (s "set -lx PATH " ++ rest) =
  emit (Some (s "set")) (emit (Some (s "-lx")) (emit (Some (s "PATH")) (fish_expand env (WMode FUnquoted) None rest))).
Proof. reflexivity. Qed.
Lemma append_head env rest : fish_expand env (WMode FUnquoted) None (s "set -lx -a PATH " ++ rest) =
  emit (Some (s "set")) (emit (Some (s "-lx")) (emit (Some (s "-a")) (emit (Some (s "PATH")) (fish_expand env (WMode FUnquoted) None rest)))).
Proof. reflexivity. Qed.
Lemma path_word old rest : fish_expand (fenv old) (WMode FUnquoted) None (s "$PATH " ++ rest) =
  match fish_expand (fenv old) (WMode FUnquoted) None rest with Some r => Some (old ++ r) | None => None end.
Proof. reflexivity. Qed.
Lemma path_last old : fish_expand (fenv old) (WMode FUnquoted) None (s "$PATH") = Some old.
Proof. reflexivity. Qed.
Lemma set_value old rest l : fish_expand (fenv old) (WMode FUnquoted) None rest = Some l -> fish_path_after old (s "set -lx PATH " ++ rest) = Some l.
Proof. intros H. unfold fish_path_after. fold (fenv old). rewrite set_head, H. reflexivity. Qed.
Lemma append_value old rest l : fish_expand (fenv old) (WMode FUnquoted) None rest = Some l -> fish_path_after old (s "set -lx -a PATH " ++ rest) = Some (old ++ l).
Proof. intros H. unfold fish_path_after. fold (fenv old). rewrite append_head, H. reflexivity. Qed.
Lemma join_split x : join [COLON] (split_c COLON x) = x.
Proof.
  induction x as [| c x IH]; [reflexivity |]. cbn [split_c]. destruct (split_c COLON x) as [| w ws] eqn:E; [destruct (split_c_nonnil _ _ E) |].
  destruct (N.eqb_spec c COLON) as [-> | _]; [rewrite join_cons; rewrite IH; reflexivity |]. destruct ws; cbn [join] in *; now rewrite <- IH.
Qed.
Lemma join_app a b : a <> [] -> b <> [] -> join [COLON] (a ++ b) = join [COLON] a ++ COLON :: join [COLON] b.
Proof.
  intros Ha Hb. induction a as [| x a IH]; [congruence |]. destruct a as [| y a].
  - cbn [app join]. destruct b; [congruence |]. reflexivity.
  - cbn [app] in *. rewrite !join_cons. rewrite IH by discriminate. rewrite <- app_assoc. reflexivity.
Qed.

Theorem fish_path_right o old : old <> [] -> path_accepted (path o) (path_append o) (path_prepend o) ->
  (forall p, path o = Some p \/ path_append o = Some p \/ path_prepend o = Some p -> plain_path p) ->
  match fish_path_code o with
  | Some code => exists dirs, fish_path_after old code = Some dirs /\
      join [COLON] dirs = path_meant (path o) (path_append o) (path_prepend o) (join [COLON] old)
  | None => path_meant (path o) (path_append o) (path_prepend o) (join [COLON] old) = join [COLON] old
  end.
Proof.
  destruct o as [p a b]. cbn [path path_append path_prepend]. intros Ho (H1 & H2 & H3 & H4) Hp. unfold fish_path_code. cbn [path path_append path_prepend].
  assert (forall x, x <> Some [] -> given x = x) as G by (intros [[|]|] Hx; [destruct (Hx eq_refl) | reflexivity | reflexivity]).
  rewrite !G by assumption. unfold path_meant.
  assert (forall x rest, plain_path x -> ends_word rest -> fish_expand (fenv old) (WMode FUnquoted) None (mkpath x ++ rest) =
    option_map (app (split_c COLON x)) (match rest with [] => Some [] | _ :: r => fish_expand (fenv old) (WMode FUnquoted) None r end)) as M.
  { intros x rest Hx Hr. unfold mkpath. apply fish_list; [apply split_c_nonnil | intros y Hy; now apply (plain_pieces x) | exact Hr]. }
  assert (forall x, plain_path x -> fish_expand (fenv old) (WMode FUnquoted) None (mkpath x) = Some (split_c COLON x)) as M'.
  { intros x Hx. rewrite <- (app_nil_r (mkpath x)), M by (auto; now left). cbn. now rewrite app_nil_r. }
  destruct p as [p |].
  - exists (split_c COLON p). split; [apply set_value, M'; auto | apply join_split].
  - destruct a as [a |], b as [b |].
    + exists (split_c COLON b ++ old ++ split_c COLON a). split.
      * apply set_value. rewrite M by (auto; right; eexists; reflexivity). change (s " $PATH " ++ mkpath a) with (SP :: s "$PATH " ++ mkpath a). cbv iota. rewrite path_word, M' by auto. reflexivity.
      * rewrite !join_app, !join_split; try apply split_c_nonnil; auto; [rewrite <- app_assoc; reflexivity |]. intros E. apply app_eq_nil in E. now destruct E.
    + exists (old ++ split_c COLON a). split; [apply append_value, M'; auto |]. rewrite join_app, join_split; auto using split_nonnil.
    + exists (split_c COLON b ++ old). split.
      * apply set_value. rewrite M by (auto; right; eexists; reflexivity). change (s " $PATH") with (SP :: s "$PATH"). cbv iota. rewrite path_last. reflexivity.
      * rewrite join_app, join_split; auto using split_nonnil. rewrite <- app_assoc. cbn [app]. now rewrite app_nil_r.
    + cbn. apply app_nil_r.
Qed.

(** ** The whole code *)
Lemma during_none {A} (after : A -> str -> option A) command old : path_during after command old command = Some old.
Proof. unfold path_during. change command with ([] ++ command) at 2. now rewrite before_app. Qed.
Lemma during_some {A} (after : A -> str -> option A) command old code : path_during after command old (code ++ [LF] ++ command) = after old code.
Proof.
  unfold path_during. rewrite app_assoc, before_app. rewrite (before_app [LF] code).
  destruct (code ++ [LF]) eqn:E; [destruct code; discriminate | reflexivity].
Qed.
Lemma options_given args : path_options_of args = PathOptions (given_text args (s "path")) (given_text args (s "path_append")) (given_text args (s "path_prepend")).
Proof. unfold path_options_of, given_text. destruct args as [| [] []]; reflexivity. Qed.
Lemma options_accepted args : proper_args args -> check_command args = Ok tt ->
  path_accepted (given_text args (s "path")) (given_text args (s "path_append")) (given_text args (s "path_prepend")).
Proof.
  intros Hp H. apply (command_iff args Hp) in H. destruct H as [-> | (d & -> & H & K)]; [repeat split; discriminate |].
  assert (proper_dict d) as Hd by (apply Hp; left; reflexivity). unfold proper_dict in Hd.
  rewrite (parameters_iff _ _ Hd) in H by names. destruct H as [_ H]. rewrite !Forall_cons_iff in H. cbn [fst snd] in H. destruct H as (H1 & H2 & H3 & _).
  assert (forall o, if_given o a_filled_text -> (match o with Some (VStr x) => Some x | _ => None end) <> Some []) as F.
  { intros o Ho E. destruct o as [v |]; [| discriminate]. destruct (Ho v eq_refl) as (x & -> & Hx). injection E as ->. now destruct Hx as (? & [] & _). }
  unfold path_accepted, given_text. split; [now apply F | split; [now apply F | split; [now apply F |]]].
  intros E. unfold has in K. destruct (vget (s "path") d) as [v |] eqn:Ev; [| congruence].
  destruct K as [K1 K2]; [eauto |].
  destruct (vget (s "path_append") d) as [a |] eqn:Ea; [destruct K1; eauto |].
  destruct (vget (s "path_prepend") d) as [b |] eqn:Eb; [destruct K2; eauto |]. auto.
Qed.
Theorem bash_command_right args append old : proper_args args -> check_command args = Ok tt ->
  bash_searches append old (bash_command append (path_options_of args)) = Some (path_for args old).
Proof.
  intros Hp H. pose proof (posix_path_right (path_options_of args) old) as R. rewrite options_given in *. cbn [path path_append path_prepend] in R.
  specialize (R (options_accepted args Hp H)). unfold bash_command, bash_searches, path_for.
  set (command := s _). assert (s "COMPREPLY" ++ (if append then s "+" else []) ++ s "=($(compgen -A command -- ""$cur""))" = command) as -> by (subst command; now destruct append).
  destruct (posix_path_code _) as [code |].
  - rewrite <- app_assoc, during_some. exact R.
  - cbn [app]. now rewrite during_none, R.
Qed.
Definition zsh_command_code (o : path_options) : str := match zsh_command o with Some code => code | None => s "_command_names" end.
Theorem zsh_command_right args old : proper_args args -> check_command args = Ok tt ->
  zsh_searches old (zsh_command_code (path_options_of args)) = Some (path_for args old).
Proof.
  intros Hp H. pose proof (posix_path_right (path_options_of args) old) as R. rewrite options_given in *. cbn [path path_append path_prepend] in R.
  specialize (R (options_accepted args Hp H)). unfold zsh_command_code, zsh_command, zsh_searches, path_for.
  destruct (posix_path_code _) as [code |].
  - now rewrite during_some.
  - now rewrite during_none, R.
Qed.
Theorem fish_command_right args old : proper_args args -> check_command args = Ok tt -> old <> [] ->
  (forall name p, given_text args name = Some p -> plain_path p) ->
  exists dirs, fish_searches old (fish_command (path_options_of args)) = Some dirs /\ join [COLON] dirs = path_for args (join [COLON] old).
Proof.
  intros Hp H Ho Hn. pose proof (fish_path_right (path_options_of args) old Ho) as R. rewrite options_given in *. cbn [path path_append path_prepend] in R.
  specialize (R (options_accepted args Hp H)). unfold fish_command, fish_searches, path_for.
  destruct (fish_path_code _) as [code |].
  - rewrite during_some. apply R. intros p [E | [E | E]]; eauto.
  - rewrite during_none. exists old. split; [reflexivity |]. symmetry. apply R. intros p [E | [E | E]]; eauto.
Qed.
