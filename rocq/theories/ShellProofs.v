(** * Proofs about quoting, identifiers and the shell-like lexer. *)
From Verif Require Import Base Shell SpecShell ShellParser.
Open Scope list_scope.
Local Open Scope N_scope.

Ltac inlist H :=
  repeat (destruct H as [<-|H]); [..|destruct H].

(** ** Character classes *)

Lemma safe_not_special c : is_safe c = true -> posix_special c = false.
Proof.
  intros H. destruct (posix_special c) eqn:E; [|reflexivity]. exfalso.
  unfold posix_special in E. rewrite memc_In in E. cbn in E.
  repeat (destruct E as [<-|E]; [vm_compute in H; discriminate|]). exact E.
Qed.

Lemma safe_not_fish_special c : is_safe c = true -> fish_special c = false.
Proof.
  intros H. destruct (fish_special c) eqn:E; [|reflexivity]. exfalso.
  unfold fish_special in E. rewrite memc_In in E. cbn in E.
  repeat (destruct E as [<-|E]; [vm_compute in H; discriminate|]). exact E.
Qed.

Lemma not_special_neq c d : posix_special c = false -> posix_special d = true -> N.eqb c d = false.
Proof. intros H1 H2. destruct (N.eqb_spec c d) as [->|]; [congruence|reflexivity]. Qed.

Lemma not_fspecial_neq c d : fish_special c = false -> fish_special d = true -> N.eqb c d = false.
Proof. intros H1 H2. destruct (N.eqb_spec c d) as [->|]; [congruence|reflexivity]. Qed.

Definition wval (w : option str) : str := match w with None => [] | Some v => v end.

Lemma push_val w c : push w c = Some (wval w ++ [c]).
Proof. destruct w; reflexivity. Qed.
Lemma start_val w : start w = Some (wval w).
Proof. destruct w; reflexivity. Qed.

(** ** Reading each quoting style with a POSIX-style shell *)

Lemma sh_read_safe eqx x rest w :
  forallb is_safe x = true -> x <> [] ->
  (eqx = true -> w = None -> hd 0 x <> EQ) ->
  sh_read eqx Unquoted w (x ++ rest) = sh_read eqx Unquoted (Some (wval w ++ x)) rest.
Proof.
  revert w; induction x as [|c x IH]; intros w H Hn Heq; [congruence|].
  cbn [forallb] in H. apply andb_true_iff in H as [Hc Hx].
  pose proof (safe_not_special c Hc) as Hs.
  cbn [app sh_read].
  rewrite !(not_special_neq c _ Hs) by reflexivity.
  cbn [orb]. rewrite Hs.
  assert (Hg : (eqx && N.eqb c EQ && match w with None => true | Some _ => false end)%bool = false).
  { destruct eqx; [|reflexivity]. destruct w as [v|]; [apply andb_false_r|].
    cbn in Heq. specialize (Heq eq_refl eq_refl).
    destruct (N.eqb_spec c EQ); [congruence|reflexivity]. }
  rewrite Hg. rewrite push_val.
  destruct x as [|d x].
  - reflexivity.
  - rewrite IH; [|exact Hx|discriminate|discriminate].
    cbn [wval]. rewrite <- app_assoc. reflexivity.
Qed.

Lemma sh_read_sq eqx x rest w :
  ~ In SQ x -> sh_read eqx InSQ w (x ++ SQ :: rest) =
               sh_read eqx Unquoted (match x with [] => w | _ => Some (wval w ++ x) end) rest.
Proof.
  revert w; induction x as [|c x IH]; intros w H.
  - cbn. reflexivity.
  - cbn [app sh_read]. destruct (N.eqb_spec c SQ) as [->|Hc]; [cbn in H; tauto|].
    rewrite IH by (cbn in H; tauto). rewrite push_val.
    destruct x; cbn [wval]; [reflexivity|]. rewrite <- app_assoc. reflexivity.
Qed.

Lemma sh_read_sq_quoted eqx x rest w :
  ~ In SQ x ->
  sh_read eqx Unquoted w (SQ :: x ++ SQ :: rest) = sh_read eqx Unquoted (Some (wval w ++ x)) rest.
Proof.
  intros H. cbn [sh_read]. rewrite N.eqb_refl, start_val, sh_read_sq by exact H.
  destruct x; [rewrite app_nil_r|]; reflexivity.
Qed.

(** The double quote strategy, character by character. *)
Definition dq_esc (c : N) : str :=
  if N.eqb c BS then [BS; BS] else if N.eqb c DOLLAR then [BS; DOLLAR]
  else if N.eqb c BTICK then [BS; BTICK] else [c].

Lemma dq_replace x :
  replace_c BTICK [BS; BTICK] (replace_c DOLLAR [BS; DOLLAR] (replace_c BS [BS; BS] x))
  = concat (map dq_esc x).
Proof.
  induction x as [|c x IH]; [reflexivity|].
  cbn [replace_c map concat]. unfold dq_esc at 1.
  destruct (N.eqb_spec c BS) as [->|Hb].
  - rewrite !replace_c_app, IH. reflexivity.
  - cbn [replace_c]. destruct (N.eqb_spec c DOLLAR) as [->|Hd].
    + rewrite !replace_c_app, IH. reflexivity.
    + cbn [replace_c]. destruct (N.eqb_spec c BTICK) as [->|Ht].
      * rewrite IH. reflexivity.
      * rewrite IH. reflexivity.
Qed.

Lemma sh_read_dq eqx x rest w :
  ~ In DQ x -> sh_read eqx InDQ w (concat (map dq_esc x) ++ DQ :: rest) =
               sh_read eqx Unquoted (match x with [] => w | _ => Some (wval w ++ x) end) rest.
Proof.
  revert w; induction x as [|c x IH]; intros w H.
  - reflexivity.
  - assert (Hs : forall w, sh_read eqx InDQ w (dq_esc c ++ concat (map dq_esc x) ++ DQ :: rest)
                 = sh_read eqx InDQ (push w c) (concat (map dq_esc x) ++ DQ :: rest)).
    { intros w'. unfold dq_esc at 1.
      destruct (N.eqb_spec c BS) as [->|Hb]; [reflexivity|].
      destruct (N.eqb_spec c DOLLAR) as [->|Hd]; [reflexivity|].
      destruct (N.eqb_spec c BTICK) as [->|Ht]; [reflexivity|].
      cbn [app sh_read].
      destruct (N.eqb_spec c DQ) as [->|Hq]; [cbn in H; tauto|].
      rewrite (proj2 (N.eqb_neq _ _) Hb), (proj2 (N.eqb_neq _ _) Hd),
              (proj2 (N.eqb_neq _ _) Ht). reflexivity. }
    cbn [map concat]. rewrite <- app_assoc, Hs, IH by (cbn in H; tauto).
    rewrite push_val. destruct x; cbn [wval]; [reflexivity|]. rewrite <- app_assoc. reflexivity.
Qed.

Lemma sh_read_dq_quoted eqx x rest w :
  ~ In DQ x ->
  sh_read eqx Unquoted w (DQ :: concat (map dq_esc x) ++ DQ :: rest)
  = sh_read eqx Unquoted (Some (wval w ++ x)) rest.
Proof.
  intros H. cbn [sh_read]. cbn. rewrite start_val, sh_read_dq by exact H.
  destruct x; [rewrite app_nil_r|]; reflexivity.
Qed.

(** Single quotes with embedded single quotes. *)
Lemma sh_read_mixed eqx x rest w :
  sh_read eqx InSQ w (replace_c SQ [SQ; DQ; SQ; DQ; SQ] x ++ SQ :: rest) =
  sh_read eqx Unquoted (match x with [] => w | _ => Some (wval w ++ x) end) rest.
Proof.
  revert w; induction x as [|c x IH]; intros w.
  - reflexivity.
  - cbn [replace_c]. destruct (N.eqb_spec c SQ) as [->|Hc].
    + rewrite <- app_assoc. cbn [app].
      cbn [sh_read]. cbn. rewrite !start_val, push_val. cbn [start wval]. rewrite IH.
      destruct x; cbn [wval]; [reflexivity|]. rewrite <- app_assoc. reflexivity.
    + cbn [app sh_read]. rewrite (proj2 (N.eqb_neq _ _) Hc), IH, push_val.
      destruct x; cbn [wval]; [reflexivity|]. rewrite <- app_assoc. reflexivity.
Qed.

Lemma sh_read_mixed_quoted eqx x rest w :
  sh_read eqx Unquoted w (SQ :: replace_c SQ [SQ; DQ; SQ; DQ; SQ] x ++ SQ :: rest)
  = sh_read eqx Unquoted (Some (wval w ++ x)) rest.
Proof.
  cbn [sh_read]. rewrite N.eqb_refl, start_val, sh_read_mixed.
  destruct x; [rewrite app_nil_r|]; reflexivity.
Qed.

Lemma quote_cases x :
  (forallb is_safe x = true /\ x <> [] /\ quote x = x) \/
  (needs_quote x = true /\ ~ In SQ x /\ quote x = SQ :: x ++ [SQ]) \/
  (needs_quote x = true /\ In SQ x /\ ~ In DQ x /\ quote x = DQ :: concat (map dq_esc x) ++ [DQ]) \/
  (needs_quote x = true /\ In SQ x /\ In DQ x /\
   quote x = SQ :: replace_c SQ [SQ; DQ; SQ; DQ; SQ] x ++ [SQ]).
Proof.
  unfold quote, quote_gen. cbn [negb andb]. rewrite andb_false_r.
  destruct (needs_quote x) eqn:En.
  - right. cbn [negb].
    destruct (memc SQ x) eqn:Es; cbn [negb].
    + right. apply memc_In in Es. destruct (memc DQ x) eqn:Ed; cbn [negb].
      * right. apply memc_In in Ed. auto.
      * left. apply memc_false in Ed. rewrite dq_replace. auto.
    + left. apply memc_false in Es. auto.
  - left. cbn [negb]. unfold needs_quote in En. apply negb_false_iff in En.
    destruct x; [discriminate|]. split; [exact En|split; [discriminate|reflexivity]].
Qed.

Lemma sh_read_quote eqx x rest w :
  (eqx = true -> w = None -> needs_quote x = true \/ hd 0 x <> EQ) ->
  sh_read eqx Unquoted w (quote x ++ rest) = sh_read eqx Unquoted (Some (wval w ++ x)) rest.
Proof.
  intros Hz.
  destruct (quote_cases x) as [[Hf [Hn ->]]|[[_ [Hs ->]]|[[_ [_ [Hd ->]]]|[_ [_ [_ ->]]]]]].
  - apply sh_read_safe; try assumption. intros He Hw. destruct (Hz He Hw) as [Hq|Hq]; [|exact Hq].
    unfold needs_quote in Hq. destruct x; [congruence|]. rewrite Hf in Hq. discriminate.
  - cbn [app]. rewrite <- app_assoc. apply sh_read_sq_quoted; exact Hs.
  - cbn [app]. rewrite <- app_assoc. apply sh_read_dq_quoted; exact Hd.
  - cbn [app]. rewrite <- app_assoc. apply sh_read_mixed_quoted.
Qed.

Lemma posix_quote x : posix_words (quote x) = Some [x].
Proof.
  unfold posix_words. rewrite <- (app_nil_r (quote x)), sh_read_quote by discriminate. reflexivity.
Qed.

Lemma sh_read_joined eqx xs :
  (eqx = true -> forall x, In x xs -> needs_quote x = true \/ hd 0 x <> EQ) ->
  sh_read eqx Unquoted None (join_quoted xs [SP]) = Some xs.
Proof.
  unfold join_quoted. induction xs as [|x xs IH]; intros Hz; [reflexivity|].
  destruct xs as [|y xs].
  - cbn [map join]. rewrite <- (app_nil_r (quote x)), sh_read_quote.
    + reflexivity.
    + intros He _. apply Hz; [exact He|left; reflexivity].
  - cbn [map]. rewrite join_cons, sh_read_quote.
    + cbn [app sh_read]. cbn [N.eqb Pos.eqb orb]. cbn [map] in IH. rewrite IH.
      * reflexivity.
      * intros He z Hzz. apply Hz; [exact He|right; exact Hzz].
    + intros He _. apply Hz; [exact He|left; reflexivity].
Qed.

Lemma posix_join_quoted xs : posix_words (join_quoted xs [SP]) = Some xs.
Proof. apply sh_read_joined. discriminate. Qed.

Lemma zsh_join_quoted xs :
  (forall x, In x xs -> needs_quote x = true \/ hd 0 x <> EQ) ->
  zsh_words (join_quoted xs [SP]) = Some xs.
Proof. intros H. apply sh_read_joined. intros _. exact H. Qed.

(** The optional argument only matters for the empty string. *)
Lemma quote_gen_nonempty x : x <> [] -> quote_gen false x = quote x.
Proof. destruct x as [|c x]; [congruence|]. reflexivity. Qed.

(** ** fish *)

Lemma fish_read_safe x rest w :
  forallb is_safe x = true -> x <> [] ->
  fish_read FUnquoted w (x ++ rest) = fish_read FUnquoted (Some (wval w ++ x)) rest.
Proof.
  revert w; induction x as [|c x IH]; intros w H Hn; [congruence|].
  cbn [forallb] in H. apply andb_true_iff in H as [Hc Hx].
  pose proof (safe_not_fish_special c Hc) as Hs.
  cbn [app fish_read].
  rewrite !(not_fspecial_neq c _ Hs) by reflexivity.
  cbn [orb]. rewrite Hs, push_val.
  destruct x as [|d x].
  - reflexivity.
  - rewrite IH; [|exact Hx|discriminate].
    cbn [wval]. rewrite <- app_assoc. reflexivity.
Qed.

Lemma fish_read_sq x rest w :
  ~ In SQ x -> ~ In BS x ->
  fish_read FInSQ w (x ++ SQ :: rest) =
  fish_read FUnquoted (match x with [] => w | _ => Some (wval w ++ x) end) rest.
Proof.
  revert w; induction x as [|c x IH]; intros w H Hb; [reflexivity|].
  cbn [app fish_read]. destruct (N.eqb_spec c SQ) as [->|Hc]; [cbn in H; tauto|].
  destruct (N.eqb_spec c BS) as [->|Hc2]; [cbn in Hb; tauto|].
  rewrite IH by (cbn in H, Hb; tauto). rewrite push_val.
  destruct x; cbn [wval]; [reflexivity|]. rewrite <- app_assoc. reflexivity.
Qed.

Lemma fish_read_dq x rest w :
  ~ In DQ x -> ~ In BTICK x ->
  fish_read FInDQ w (concat (map dq_esc x) ++ DQ :: rest) =
  fish_read FUnquoted (match x with [] => w | _ => Some (wval w ++ x) end) rest.
Proof.
  revert w; induction x as [|c x IH]; intros w H Ht.
  - reflexivity.
  - assert (Hs : forall w, fish_read FInDQ w (dq_esc c ++ concat (map dq_esc x) ++ DQ :: rest)
                 = fish_read FInDQ (push w c) (concat (map dq_esc x) ++ DQ :: rest)).
    { intros w'. unfold dq_esc at 1.
      destruct (N.eqb_spec c BS) as [->|Hb]; [reflexivity|].
      destruct (N.eqb_spec c DOLLAR) as [->|Hd]; [reflexivity|].
      destruct (N.eqb_spec c BTICK) as [->|Hk]; [cbn in Ht; tauto|].
      cbn [app fish_read].
      destruct (N.eqb_spec c DQ) as [->|Hq]; [cbn in H; tauto|].
      rewrite (proj2 (N.eqb_neq _ _) Hb), (proj2 (N.eqb_neq _ _) Hd). reflexivity. }
    cbn [map concat]. rewrite <- app_assoc, Hs, IH by (cbn in H, Ht; tauto).
    rewrite push_val. destruct x; cbn [wval]; [reflexivity|]. rewrite <- app_assoc. reflexivity.
Qed.

Lemma fish_read_mixed x rest w :
  ~ In BS x ->
  fish_read FInSQ w (replace_c SQ [SQ; DQ; SQ; DQ; SQ] x ++ SQ :: rest) =
  fish_read FUnquoted (match x with [] => w | _ => Some (wval w ++ x) end) rest.
Proof.
  revert w; induction x as [|c x IH]; intros w Hb.
  - reflexivity.
  - cbn [replace_c]. destruct (N.eqb_spec c SQ) as [->|Hc].
    + rewrite <- app_assoc. cbn [app].
      cbn [fish_read]. cbn. rewrite !start_val, push_val. cbn [start wval].
      rewrite IH by (cbn in Hb; tauto).
      destruct x; cbn [wval]; [reflexivity|]. rewrite <- app_assoc. reflexivity.
    + cbn [app fish_read]. destruct (N.eqb_spec c BS) as [->|Hc2]; [cbn in Hb; tauto|].
      rewrite (proj2 (N.eqb_neq _ _) Hc), IH, push_val by (cbn in Hb; tauto).
      destruct x; cbn [wval]; [reflexivity|]. rewrite <- app_assoc. reflexivity.
Qed.

Lemma fish_quote x : ~ In BS x -> ~ In BTICK x -> fish_words (quote x) = Some [x].
Proof.
  intros Hb Ht. unfold fish_words.
  destruct (quote_cases x) as [[Hf [Hn ->]]|[[_ [Hs ->]]|[[_ [_ [Hd ->]]]|[_ [_ [_ ->]]]]]].
  - rewrite <- (app_nil_r x) at 1. rewrite fish_read_safe by assumption. reflexivity.
  - cbn [fish_read]. cbn. rewrite fish_read_sq by assumption. destruct x; reflexivity.
  - cbn [fish_read]. cbn. rewrite fish_read_dq by assumption. destruct x; reflexivity.
  - cbn [fish_read]. cbn. rewrite fish_read_mixed by assumption. destruct x; reflexivity.
Qed.

(** ** The code's own lexer reads what [quote] writes *)

Lemma is_space_safe c : is_safe c = true -> is_space c = false.
Proof.
  intros H. destruct (is_space c) eqn:S; [|reflexivity]. exfalso.
  unfold is_safe, is_word, is_lower, is_upper, is_digit, is_space, memc in *. cbn [existsb] in *.
  rewrite ?orb_true_iff, ?andb_true_iff, ?N.leb_le, ?N.ltb_lt, ?N.eqb_eq in *. lia.
Qed.

Lemma safe_not_lexop c : is_safe c = true -> memc c [AMP; PIPE; BANG; LPAR; RPAR] = false.
Proof.
  intros H. destruct (memc c _) eqn:E; [|reflexivity]. exfalso. rewrite memc_In in E. cbn in E.
  repeat (destruct E as [<-|E]; [vm_compute in H; discriminate|]). exact E.
Qed.

Lemma single_quote_loop_app x rest : ~ In SQ x ->
  single_quote_loop (x ++ SQ :: rest) = Ok (x, rest).
Proof.
  induction x as [|c x IH]; intros H; [reflexivity|].
  cbn [app single_quote_loop]. destruct (N.eqb_spec c SQ) as [->|Hc]; [cbn in H; tauto|].
  rewrite IH by (cbn in H; tauto). reflexivity.
Qed.

Lemma double_quote_loop_app x rest : ~ In DQ x ->
  double_quote_loop (concat (map dq_esc x) ++ DQ :: rest) = Ok (x, rest).
Proof.
  induction x as [|c x IH]; intros H; [reflexivity|].
  cbn [map concat]. unfold dq_esc at 1.
  assert (IH' := IH (fun h => H (or_intror h))).
  destruct (N.eqb_spec c BS) as [->|Hb]; [cbn [app double_quote_loop]; cbn; rewrite IH'; reflexivity|].
  destruct (N.eqb_spec c DOLLAR) as [->|Hd]; [cbn [app double_quote_loop]; cbn; rewrite IH'; reflexivity|].
  destruct (N.eqb_spec c BTICK) as [->|Ht]; [cbn [app double_quote_loop]; cbn; rewrite IH'; reflexivity|].
  cbn [app double_quote_loop]. rewrite (proj2 (N.eqb_neq _ _) Hb).
  destruct (N.eqb_spec c DQ) as [->|Hq]; [cbn in H; tauto|].
  rewrite IH'. reflexivity.
Qed.

(** What is left behind a word for the lexer to stop: nothing, or white space. *)
Definition stops (rest : str) : Prop :=
  rest = [] \/ exists c r, rest = c :: r /\ is_space c = true.

Lemma parse_literal_stop fuel lit rest : stops rest ->
  parse_literal (S fuel) lit rest = Ok (lit, rest).
Proof.
  intros [->|[c [r [-> Hc]]]]; [reflexivity|].
  cbn [parse_literal].
  destruct (N.eqb_spec c DQ) as [->|H1]; [vm_compute in Hc; discriminate|].
  destruct (N.eqb_spec c SQ) as [->|H2]; [vm_compute in Hc; discriminate|].
  rewrite Hc. reflexivity.
Qed.

Lemma parse_literal_safe x : forall fuel lit rest,
  forallb is_safe x = true -> stops rest -> (length x < fuel)%nat ->
  parse_literal fuel lit (x ++ rest) = Ok (lit ++ x, rest).
Proof.
  induction x as [|c x IH]; intros fuel lit rest H Hr Hf.
  - destruct fuel; [lia|]. rewrite app_nil_r. apply parse_literal_stop; exact Hr.
  - destruct fuel as [|fuel]; [lia|]. cbn [forallb] in H. apply andb_true_iff in H as [Hc Hx].
    cbn [app parse_literal].
    pose proof (safe_not_special c Hc) as Hs.
    rewrite (not_special_neq c DQ Hs) by reflexivity.
    rewrite (not_special_neq c SQ Hs) by reflexivity.
    rewrite (is_space_safe c Hc), (safe_not_lexop c Hc). cbn [orb].
    rewrite IH by (cbn in Hf; try assumption; lia). rewrite <- app_assoc. reflexivity.
Qed.

Lemma parse_single_quote_app x rest : ~ In SQ x ->
  parse_single_quote (SQ :: x ++ SQ :: rest) = Ok (x, rest).
Proof. intros H. cbn [parse_single_quote]. apply single_quote_loop_app; exact H. Qed.

(** One step of [parse_literal] on a single-quoted or double-quoted piece. *)
Lemma parse_literal_sq_step fuel lit x rest : ~ In SQ x ->
  parse_literal (S fuel) lit (SQ :: x ++ SQ :: rest) = parse_literal fuel (lit ++ x) rest.
Proof.
  intros H. cbn [parse_literal]. change (N.eqb SQ DQ) with false. rewrite N.eqb_refl.
  rewrite parse_single_quote_app by exact H. reflexivity.
Qed.

Lemma parse_literal_dq_step fuel lit x rest : ~ In DQ x ->
  parse_literal (S fuel) lit (DQ :: concat (map dq_esc x) ++ DQ :: rest)
  = parse_literal fuel (lit ++ x) rest.
Proof.
  intros H. cbn [parse_literal]. rewrite N.eqb_refl. cbn [parse_double_quote]. rewrite N.eqb_refl.
  rewrite double_quote_loop_app by exact H. reflexivity.
Qed.

(** Splitting a string at its single quotes. *)
Lemma mixed_split x :
  SQ :: replace_c SQ [SQ; DQ; SQ; DQ; SQ] x ++ [SQ] =
  match split_c SQ x with
  | [] => []
  | p :: ps => SQ :: p ++ SQ :: concat (map (fun q => DQ :: SQ :: DQ :: SQ :: q ++ [SQ]) ps)
  end.
Proof.
  induction x as [|c x IH]; [reflexivity|].
  cbn [replace_c split_c].
  destruct (split_c SQ x) as [|p ps] eqn:E; [exfalso; exact (split_c_nonnil _ _ E)|].
  injection IH as IH.
  destruct (N.eqb_spec c SQ) as [->|Hc].
  - cbn [app map concat]. rewrite <- app_assoc. cbn [app]. rewrite IH.
    reflexivity.
  - cbn [app]. rewrite IH. reflexivity.
Qed.

Lemma split_c_pieces c x p : In p (split_c c x) -> ~ In c p.
Proof.
  revert p; induction x as [|d x IH]; cbn; intros p H.
  - destruct H as [<-|[]]; intros [].
  - destruct (split_c c x) as [|w ws] eqn:E; [exfalso; exact (split_c_nonnil _ _ E)|].
    destruct (N.eqb_spec d c) as [->|Hd].
    + destruct H as [<-|H]; [intros []|apply IH; exact H].
    + destruct H as [<-|H].
      * intros [->|H2]; [congruence|]. exact (IH w (or_introl eq_refl) H2).
      * apply IH; right; exact H.
Qed.

Lemma parse_literal_pieces ps : forall fuel lit rest,
  (forall p, In p ps -> ~ In SQ p) -> stops rest ->
  (2 * length ps < fuel)%nat ->
  parse_literal fuel lit
    (concat (map (fun q => DQ :: SQ :: DQ :: SQ :: q ++ [SQ]) ps) ++ rest)
  = Ok (lit ++ concat (map (fun q => SQ :: q) ps), rest).
Proof.
  induction ps as [|p ps IH]; intros fuel lit rest Hp Hr Hf.
  - destruct fuel; [lia|]. cbn [map concat app]. rewrite app_nil_r.
    apply parse_literal_stop; exact Hr.
  - destruct fuel as [|[|fuel]]; [cbn in Hf; lia..|].
    cbn [map concat].
    replace (((DQ :: SQ :: DQ :: SQ :: p ++ [SQ])
              ++ concat (map (fun q => DQ :: SQ :: DQ :: SQ :: q ++ [SQ]) ps)) ++ rest)
      with (DQ :: concat (map dq_esc [SQ]) ++ DQ :: (SQ :: p ++ SQ ::
              (concat (map (fun q => DQ :: SQ :: DQ :: SQ :: q ++ [SQ]) ps) ++ rest)))
      by (cbn; rewrite <- !app_assoc; reflexivity).
    rewrite parse_literal_dq_step by (cbn; intros [H|[]]; discriminate).
    rewrite parse_literal_sq_step by (apply Hp; left; reflexivity).
    rewrite IH; [|intros q Hq; apply Hp; right; exact Hq|exact Hr|cbn in Hf; lia].
    rewrite <- !app_assoc. reflexivity.
Qed.

Lemma split_concat x :
  match split_c SQ x with
  | [] => []
  | p :: ps => p ++ concat (map (fun q => SQ :: q) ps)
  end = x.
Proof.
  rewrite <- (join_split_c SQ x) at 2.
  destruct (split_c SQ x) as [|p ps]; [reflexivity|].
  revert p; induction ps as [|q ps IH]; intros p; [apply app_nil_r|].
  rewrite join_cons. cbn [map concat]. rewrite <- IH. reflexivity.
Qed.

Lemma split_c_length c x : (length (split_c c x) <= S (length x))%nat.
Proof.
  induction x as [|d x IH]; cbn; [lia|].
  destruct (split_c c x) as [|w ws]; [cbn in *; lia|].
  destruct (N.eqb d c); cbn in *; lia.
Qed.

Lemma split_c_replace_length x :
  (2 * length (split_c SQ x) <= 2 + length (replace_c SQ [SQ; DQ; SQ; DQ; SQ] x))%nat.
Proof.
  induction x as [|d x IH]; cbn; [lia|].
  destruct (split_c SQ x) as [|w ws]; [cbn in *; lia|].
  destruct (N.eqb d SQ); cbn in *; try rewrite app_length; cbn in *; lia.
Qed.

Lemma parse_literal_quote x rest fuel : stops rest -> (length (quote x ++ rest) < fuel)%nat ->
  parse_literal fuel [] (quote x ++ rest) = Ok (x, rest).
Proof.
  intros Hr Hf.
  destruct (quote_cases x) as [[Hs [Hn E]]|[[_ [Hs E]]|[[_ [_ [Hd E]]]|[_ [_ [_ E]]]]]];
    rewrite E in *.
  - rewrite app_length in Hf. apply (parse_literal_safe x fuel [] rest); [assumption..|lia].
  - rewrite app_length in Hf. cbn [length] in Hf. rewrite app_length in Hf. cbn [length] in Hf.
    destruct fuel as [|[|fuel]]; [lia..|].
    cbn [app]. rewrite <- app_assoc. cbn [app].
    rewrite parse_literal_sq_step by exact Hs. apply parse_literal_stop; exact Hr.
  - rewrite app_length in Hf. cbn [length] in Hf. rewrite app_length in Hf. cbn [length] in Hf.
    destruct fuel as [|[|fuel]]; [lia..|].
    cbn [app]. rewrite <- app_assoc. cbn [app].
    rewrite parse_literal_dq_step by exact Hd. apply parse_literal_stop; exact Hr.
  - pose proof (split_c_replace_length x) as Hl.
    pose proof (split_concat x) as Hc.
    pose proof (split_c_pieces SQ x) as Hp.
    rewrite app_length in Hf. cbn [length] in Hf. rewrite app_length in Hf. cbn [length] in Hf.
    rewrite mixed_split.
    destruct (split_c SQ x) as [|p ps] eqn:Es; [exfalso; exact (split_c_nonnil _ _ Es)|].
    destruct fuel as [|fuel]; [lia|].
    cbn [app]. rewrite <- app_assoc. cbn [app].
    rewrite parse_literal_sq_step by (apply Hp; left; reflexivity).
    rewrite parse_literal_pieces; [|intros q Hq; apply Hp; right; exact Hq|exact Hr|].
    2: { cbn [length] in Hl. lia. }
    cbn [app]. rewrite Hc. reflexivity.
Qed.

(** The first character of a quoted string never starts an operator or blank. *)
Lemma quote_first x : exists c q, quote x = c :: q /\ is_space c = false /\
  memc c [AMP; PIPE; BANG; LPAR; RPAR] = false.
Proof.
  destruct (quote_cases x) as [[Hs [Hn E]]|[[_ [Hs E]]|[[_ [_ [Hd E]]]|[_ [_ [_ E]]]]]];
    rewrite E.
  - destruct x as [|c x]; [congruence|]. exists c, x. split; [reflexivity|].
    cbn [forallb] in Hs. apply andb_true_iff in Hs as [Hc _].
    split; [apply is_space_safe|apply safe_not_lexop]; exact Hc.
  - eexists _, _. split; [reflexivity|]. split; reflexivity.
  - eexists _, _. split; [reflexivity|]. split; reflexivity.
  - eexists _, _. split; [reflexivity|]. split; reflexivity.
Qed.

Lemma parse_token_quote x rest : stops rest ->
  parse_token (quote x ++ rest) = Ok (Some (TLit x, rest)).
Proof.
  intros Hr. destruct (quote_first x) as [c [q [Hq [Hsp Hop]]]].
  assert (Hlit : parse_literal (S (length (quote x ++ rest))) [] (quote x ++ rest) = Ok (x, rest))
    by (apply parse_literal_quote; [exact Hr|lia]).
  rewrite Hq in *. cbn [app] in *.
  unfold parse_token; fold parse_token.
  unfold memc in Hop. cbn [existsb] in Hop.
  repeat (apply orb_false_iff in Hop as [? Hop]).
  rewrite H1, H2, H3, Hsp, H, H0. cbv zeta. rewrite Hlit. reflexivity.
Qed.

Lemma parse_token_space c x : is_space c = true -> parse_token (c :: x) = parse_token x.
Proof.
  intros H. cbn [parse_token].
  destruct (N.eqb_spec c BANG) as [->|_]; [vm_compute in H; discriminate|].
  destruct (N.eqb_spec c LPAR) as [->|_]; [vm_compute in H; discriminate|].
  destruct (N.eqb_spec c RPAR) as [->|_]; [vm_compute in H; discriminate|].
  rewrite H. reflexivity.
Qed.

Lemma lex_loop_joined xs : forall fuel, (length xs < fuel)%nat ->
  lex_loop fuel (join_quoted xs [SP]) = Ok (map TLit xs).
Proof.
  unfold join_quoted. induction xs as [|x xs IH]; intros fuel Hf.
  - destruct fuel; [lia|]. reflexivity.
  - destruct fuel as [|fuel]; [lia|]. destruct xs as [|y xs].
    + cbn [map join lex_loop]. rewrite <- (app_nil_r (quote x)).
      rewrite parse_token_quote by (left; reflexivity). cbn [bind].
      destruct fuel; [cbn in Hf; lia|]. reflexivity.
    + cbn [map]. rewrite join_cons. cbn [lex_loop].
      rewrite parse_token_quote by (right; eexists _, _; split; [reflexivity|reflexivity]).
      cbn [bind].
      assert (Hsp : lex_loop fuel ([SP] ++ join [SP] (quote y :: map quote xs))
                    = lex_loop fuel (join [SP] (quote y :: map quote xs))).
      { destruct fuel; [cbn in Hf; lia|]. cbn [lex_loop app].
        rewrite parse_token_space by reflexivity. reflexivity. }
      rewrite Hsp. cbn [map] in IH. rewrite IH by (cbn in *; lia). reflexivity.
Qed.

Lemma quote_length x : (1 <= length (quote x))%nat.
Proof. destruct (quote_first x) as [c [q [-> _]]]. cbn; lia. Qed.

Lemma join_quoted_length xs : (length xs <= length (join_quoted xs [SP]))%nat.
Proof.
  unfold join_quoted. induction xs as [|x xs IH]; [cbn; lia|].
  destruct xs as [|y xs].
  - cbn. apply quote_length.
  - cbn [map]. rewrite join_cons. rewrite !app_length. cbn [map] in IH.
    pose proof (quote_length x). cbn [length] in *. lia.
Qed.

Lemma lex_join_quoted xs : lex (join_quoted xs [SP]) = Ok (map TLit xs).
Proof. unfold lex. apply lex_loop_joined. pose proof (join_quoted_length xs). lia. Qed.

(** ** The lexer terminates within its fuel for every input *)

Lemma single_quote_loop_len x v r : single_quote_loop x = Ok (v, r) -> (length r < length x)%nat.
Proof.
  revert v r; induction x as [|c x IH]; cbn; intros v r H; [discriminate|].
  destruct (N.eqb c SQ); [injection H as <- <-; lia|].
  destruct (single_quote_loop x) as [e|[v' r']]; cbn in H; [discriminate|].
  injection H as <- <-. specialize (IH _ _ eq_refl). lia.
Qed.

Lemma double_quote_loop_len n : forall x v r, (length x <= n)%nat ->
  double_quote_loop x = Ok (v, r) -> (length r < length x)%nat.
Proof.
  induction n as [|n IH]; intros x v r Hn H.
  - destruct x; [cbn in H; discriminate|cbn in Hn; lia].
  - destruct x as [|c x]; [cbn in H; discriminate|]. cbn in H, Hn.
    destruct (N.eqb c BS).
    + destruct x as [|d x]; [discriminate|].
      destruct (double_quote_loop x) as [e|[v' r']] eqn:E; cbn in H; [discriminate|].
      injection H as <- <-. apply IH in E; cbn in *; lia.
    + destruct (N.eqb c DQ); [injection H as <- <-; cbn; lia|].
      destruct (double_quote_loop x) as [e|[v' r']] eqn:E; cbn in H; [discriminate|].
      injection H as <- <-. apply IH in E; cbn in *; lia.
Qed.

Lemma single_quote_loop_fuel x : single_quote_loop x <> Err OutOfFuel.
Proof.
  induction x as [|c x IH]; cbn; [discriminate|].
  destruct (N.eqb c SQ); [discriminate|].
  destruct (single_quote_loop x) as [e|[v' r']]; cbn; [congruence|discriminate].
Qed.

Lemma double_quote_loop_fuel n : forall x, (length x <= n)%nat -> double_quote_loop x <> Err OutOfFuel.
Proof.
  induction n as [|n IH]; intros x Hn.
  - destruct x; [cbn; discriminate|cbn in Hn; lia].
  - destruct x as [|c x]; [cbn; discriminate|]. cbn in *.
    destruct (N.eqb c BS).
    + destruct x as [|d x]; [discriminate|]. cbn in Hn. specialize (IH x ltac:(lia)).
      destruct (double_quote_loop x) as [e|[v' r']]; cbn; [congruence|discriminate].
    + destruct (N.eqb c DQ); [discriminate|]. specialize (IH x ltac:(lia)).
      destruct (double_quote_loop x) as [e|[v' r']]; cbn; [congruence|discriminate].
Qed.

Lemma parse_literal_fuel fuel : forall lit x, (length x < fuel)%nat ->
  parse_literal fuel lit x <> Err OutOfFuel.
Proof.
  induction fuel as [|fuel IH]; intros lit x Hf; [lia|].
  destruct x as [|c x]; cbn [parse_literal]; [discriminate|].
  destruct (N.eqb c DQ) eqn:Ed.
  - cbn [parse_double_quote]. rewrite Ed.
    pose proof (double_quote_loop_fuel _ x (le_n _)) as Hq.
    destruct (double_quote_loop x) as [e|[v r]] eqn:E; cbn [bind]; [congruence|].
    apply double_quote_loop_len with (n := length x) in E; [|lia].
    apply IH. cbn in Hf; lia.
  - destruct (N.eqb c SQ) eqn:Es.
    + cbn [parse_single_quote]. rewrite Es.
      pose proof (single_quote_loop_fuel x) as Hq.
      destruct (single_quote_loop x) as [e|[v r]] eqn:E; cbn [bind]; [congruence|].
      apply single_quote_loop_len in E. apply IH. cbn in Hf; lia.
    + destruct (is_space c || memc c _)%bool; [discriminate|]. apply IH. cbn in Hf; lia.
Qed.

Lemma parse_literal_len fuel : forall lit x v r,
  parse_literal fuel lit x = Ok (v, r) -> (length r <= length x)%nat.
Proof.
  induction fuel as [|fuel IH]; intros lit x v r H; [discriminate|].
  destruct x as [|c x]; cbn [parse_literal] in H; [injection H as <- <-; cbn; lia|].
  destruct (N.eqb c DQ) eqn:Ed.
  - cbn [parse_double_quote] in H. rewrite Ed in H.
    destruct (double_quote_loop x) as [e|[v' r']] eqn:E; cbn [bind] in H; [discriminate|].
    apply double_quote_loop_len with (n := length x) in E; [|lia].
    apply IH in H. cbn; lia.
  - destruct (N.eqb c SQ) eqn:Es.
    + cbn [parse_single_quote] in H. rewrite Es in H.
      destruct (single_quote_loop x) as [e|[v' r']] eqn:E; cbn [bind] in H; [discriminate|].
      apply single_quote_loop_len in E. apply IH in H. cbn; lia.
    + destruct (is_space c || memc c _)%bool; [injection H as <- <-; cbn; lia|].
      apply IH in H. cbn; lia.
Qed.

(** A literal token consumes at least one character. *)
Lemma parse_literal_progress fuel c x v r :
  is_space c = false -> memc c [AMP; PIPE; BANG; LPAR; RPAR] = false ->
  parse_literal (S fuel) [] (c :: x) = Ok (v, r) -> (length r < length (c :: x))%nat.
Proof.
  intros Hs Ho H. cbn [parse_literal] in H.
  destruct (N.eqb c DQ) eqn:Ed.
  - cbn [parse_double_quote] in H. rewrite Ed in H.
    destruct (double_quote_loop x) as [e|[v' r']] eqn:E; cbn [bind] in H; [discriminate|].
    apply double_quote_loop_len with (n := length x) in E; [|lia].
    apply parse_literal_len in H. cbn; lia.
  - destruct (N.eqb c SQ) eqn:Es.
    + cbn [parse_single_quote] in H. rewrite Es in H.
      destruct (single_quote_loop x) as [e|[v' r']] eqn:E; cbn [bind] in H; [discriminate|].
      apply single_quote_loop_len in E. apply parse_literal_len in H. cbn; lia.
    + rewrite Hs, Ho in H. cbn [orb] in H. apply parse_literal_len in H. cbn; lia.
Qed.

Lemma parse_token_fuel x : parse_token x <> Err OutOfFuel.
Proof.
  induction x as [|c x IH]; [cbn; discriminate|].
  unfold parse_token; fold parse_token.
  destruct (N.eqb c BANG); [discriminate|].
  destruct (N.eqb c LPAR); [discriminate|].
  destruct (N.eqb c RPAR); [discriminate|].
  destruct (is_space c); [exact IH|].
  destruct (N.eqb c AMP); [destruct x as [|d x]; [discriminate|]; destruct (N.eqb d AMP); discriminate|].
  destruct (N.eqb c PIPE); [destruct x as [|d x]; [discriminate|]; destruct (N.eqb d PIPE); discriminate|].
  pose proof (parse_literal_fuel (S (length (c :: x))) [] (c :: x) ltac:(lia)) as Hp.
  destruct (parse_literal _ _ _) as [e|[v r]]; cbn; [congruence|discriminate].
Qed.

Lemma parse_token_len x t r : parse_token x = Ok (Some (t, r)) -> (length r < length x)%nat.
Proof.
  revert t r; induction x as [|c x IH]; intros t r H; [cbn in H; discriminate|].
  unfold parse_token in H; fold parse_token in H.
  destruct (N.eqb c BANG) eqn:E1; [injection H as <- <-; cbn; lia|].
  destruct (N.eqb c LPAR) eqn:E2; [injection H as <- <-; cbn; lia|].
  destruct (N.eqb c RPAR) eqn:E3; [injection H as <- <-; cbn; lia|].
  destruct (is_space c) eqn:E4; [apply IH in H; cbn; lia|].
  destruct (N.eqb c AMP) eqn:E5.
  { destruct x as [|d x]; [discriminate|]; destruct (N.eqb d AMP); [|discriminate].
    injection H as <- <-; cbn; lia. }
  destruct (N.eqb c PIPE) eqn:E6.
  { destruct x as [|d x]; [discriminate|]; destruct (N.eqb d PIPE); [|discriminate].
    injection H as <- <-; cbn; lia. }
  destruct (parse_literal _ _ _) as [e|[v r']] eqn:E; cbn [bind] in H; [discriminate|].
  injection H as <- <-. apply parse_literal_progress in E; [exact E|exact E4|].
  unfold memc; cbn [existsb]. rewrite E1, E2, E3, E5, E6. reflexivity.
Qed.

Lemma lex_loop_fuel fuel : forall x, (length x < fuel)%nat -> lex_loop fuel x <> Err OutOfFuel.
Proof.
  induction fuel as [|fuel IH]; intros x Hf; [lia|]. cbn [lex_loop].
  pose proof (parse_token_fuel x) as Hp.
  destruct (parse_token x) as [e|[[t r]|]] eqn:E; cbn [bind]; [congruence| |discriminate].
  apply parse_token_len in E. specialize (IH r ltac:(lia)).
  destruct (lex_loop fuel r) as [e|ts]; cbn; [congruence|discriminate].
Qed.

Lemma lex_fuel x : lex x <> Err OutOfFuel.
Proof. apply lex_loop_fuel. lia. Qed.

(** ** Identifiers *)

Lemma is_word_not_dash : is_word DASH = false.
Proof. reflexivity. Qed.

Lemma collapse_word x : forallb is_word x = true -> forallb is_word (collapse_und x) = true.
Proof.
  induction x as [|c x IH]; [reflexivity|]. cbn [forallb]. intros H.
  apply andb_true_iff in H as [Hc Hx]. cbn [collapse_und].
  destruct x as [|d x]; [cbn; rewrite Hc; reflexivity|].
  destruct (N.eqb c UND && N.eqb d UND)%bool; [apply IH; exact Hx|].
  cbn [forallb]. rewrite Hc. apply IH; exact Hx.
Qed.

(** No two consecutive underscores. *)
Fixpoint no_double_und (x : str) : bool :=
  match x with
  | c :: (d :: _) as x' => negb (N.eqb c UND && N.eqb d UND) && no_double_und x'
  | _ => true
  end.

Lemma collapse_hd x : hd_error (collapse_und x) = hd_error x.
Proof.
  induction x as [|c x IH]; [reflexivity|]. cbn [collapse_und].
  destruct x as [|d x]; [reflexivity|].
  destruct (N.eqb_spec c UND) as [->|]; [|reflexivity].
  destruct (N.eqb_spec d UND) as [->|]; [|reflexivity].
  cbn [andb]. rewrite IH. reflexivity.
Qed.

Lemma collapse_no_double x : no_double_und (collapse_und x) = true.
Proof.
  induction x as [|c x IH]; [reflexivity|]. cbn [collapse_und].
  destruct x as [|d x]; [reflexivity|].
  destruct (N.eqb c UND && N.eqb d UND)%bool eqn:E; [exact IH|].
  pose proof (collapse_hd (d :: x)) as Hh.
  destruct (collapse_und (d :: x)) as [|e y]; [discriminate|].
  cbn in Hh. injection Hh as ->.
  cbn [no_double_und]. rewrite E. exact IH.
Qed.

Lemma no_double_collapse x : no_double_und x = true -> collapse_und x = x.
Proof.
  induction x as [|c x IH]; [reflexivity|]. destruct x as [|d x]; [reflexivity|].
  cbn [no_double_und]. intros H. apply andb_true_iff in H as [Hc Hx].
  cbn [collapse_und] in *. apply negb_true_iff in Hc. rewrite Hc.
  rewrite IH by exact Hx. reflexivity.
Qed.

Lemma drop_nonword_word x : forallb is_word (drop_nonword x) = true.
Proof.
  unfold drop_nonword. induction x as [|c x IH]; [reflexivity|]. cbn [filter].
  destruct (is_word c) eqn:E; [cbn; rewrite E|]; exact IH.
Qed.

Lemma drop_nonword_id x : forallb is_word x = true -> drop_nonword x = x.
Proof.
  unfold drop_nonword. induction x as [|c x IH]; [reflexivity|]. cbn [forallb filter]. intros H.
  apply andb_true_iff in H as [-> Hx]. rewrite IH by exact Hx. reflexivity.
Qed.

Lemma digit_word c : is_digit c = true -> is_word c = true.
Proof. intros H. unfold is_word. rewrite H. rewrite orb_true_r. reflexivity. Qed.
Lemma digit_not_und c : is_digit c = true -> N.eqb c UND = false.
Proof. intros H. destruct (N.eqb_spec c UND) as [->|]; [discriminate|reflexivity]. Qed.

Lemma make_identifier_word x : forallb is_word (make_identifier x) = true.
Proof.
  unfold make_identifier. cbv zeta.
  pose proof (collapse_word _ (drop_nonword_word (replace_c DASH [UND] x))) as H.
  destruct (collapse_und _) as [|c y] eqn:E; [reflexivity|].
  destruct (is_digit c); [|exact H]. cbn. exact H.
Qed.

Lemma make_identifier_no_double x : no_double_und (make_identifier x) = true.
Proof.
  unfold make_identifier. cbv zeta.
  pose proof (collapse_no_double (drop_nonword (replace_c DASH [UND] x))) as H.
  destruct (collapse_und _) as [|c y] eqn:E; [reflexivity|].
  destruct (is_digit c) eqn:Ed; [|exact H].
  change (negb (N.eqb UND UND && N.eqb c UND) && no_double_und (c :: y) = true)%bool.
  rewrite (digit_not_und c Ed), andb_false_r. exact H.
Qed.

Lemma make_identifier_first x c y : make_identifier x = c :: y -> is_digit c = false.
Proof.
  unfold make_identifier. cbv zeta. destruct (collapse_und _) as [|d z]; [discriminate|].
  destruct (is_digit d) eqn:Ed; intros H; injection H as <- <-; [reflexivity|exact Ed].
Qed.

Lemma make_identifier_idem x : make_identifier (make_identifier x) = make_identifier x.
Proof.
  pose proof (make_identifier_word x) as Hw.
  pose proof (make_identifier_no_double x) as Hd.
  pose proof (make_identifier_first x) as Hf.
  set (y := make_identifier x) in *. unfold make_identifier. cbv zeta.
  rewrite replace_c_notin.
  - rewrite drop_nonword_id, no_double_collapse by assumption.
    destruct y as [|c y]; [reflexivity|]. rewrite (Hf c y eq_refl). reflexivity.
  - intros Hin. rewrite forallb_forall in Hw. specialize (Hw _ Hin). discriminate.
Qed.

Lemma collapse_nonempty x : x <> [] -> collapse_und x <> [].
Proof. intros H E. pose proof (collapse_hd x) as Hh. rewrite E in Hh. destruct x; [congruence|discriminate]. Qed.

Lemma make_identifier_nonempty x c :
  In c x -> (is_word c = true \/ c = DASH) -> make_identifier x <> [].
Proof.
  intros Hin Hc.
  assert (Hn : drop_nonword (replace_c DASH [UND] x) <> []).
  { apply in_split in Hin as [l1 [l2 ->]].
    rewrite replace_c_app. unfold drop_nonword. rewrite filter_app. intros E.
    apply app_eq_nil in E as [_ E]. cbn [replace_c] in E.
    destruct (N.eqb_spec c DASH) as [->|Hd].
    - cbn in E. discriminate.
    - destruct Hc as [Hc|Hc]; [|congruence]. cbn in E. rewrite Hc in E. discriminate. }
  apply collapse_nonempty in Hn. unfold make_identifier. cbv zeta.
  destruct (collapse_und _) as [|d y]; [congruence|]. destruct (is_digit d); discriminate.
Qed.

(** Conversely the identifier is empty if nothing can be kept. *)
Lemma make_identifier_empty x :
  (forall c, In c x -> is_word c = false /\ c <> DASH) -> make_identifier x = [].
Proof.
  intros H. assert (E : drop_nonword (replace_c DASH [UND] x) = []).
  { rewrite replace_c_notin by (intros Hd; apply H in Hd as [_ Hd]; congruence).
    unfold drop_nonword. induction x as [|c x IH]; [reflexivity|]. cbn.
    rewrite (proj1 (H c (or_introl eq_refl))). apply IH. intros d Hd. apply H. right; exact Hd. }
  unfold make_identifier. rewrite E. reflexivity.
Qed.

Lemma is_word_spec c : is_word c = true <->
  (97 <= c <= 122 \/ 65 <= c <= 90 \/ 48 <= c <= 57 \/ c = UND)%N.
Proof.
  unfold is_word, is_lower, is_upper, is_digit.
  rewrite !orb_true_iff, !andb_true_iff, !N.leb_le, N.eqb_eq. tauto.
Qed.

Lemma is_digit_spec c : is_digit c = true <-> (48 <= c <= 57)%N.
Proof. unfold is_digit. rewrite andb_true_iff, !N.leb_le. tauto. Qed.

Lemma no_double_spec x : no_double_und x = true -> forall l r, x <> l ++ UND :: UND :: r.
Proof.
  intros H l. revert x H. induction l as [|a l IH]; intros x H r E; subst x.
  - cbn in H. discriminate.
  - cbn [app] in H. destruct (l ++ UND :: UND :: r) as [|b y] eqn:E.
    + destruct l; discriminate.
    + cbn [no_double_und] in H. apply andb_true_iff in H as [_ H].
      apply (IH (b :: y) H r). symmetry; exact E.
Qed.

Lemma make_identifier_spec x :
  (forall c, In c (make_identifier x) ->
     (97 <= c <= 122 \/ 65 <= c <= 90 \/ 48 <= c <= 57 \/ c = UND)%N) /\
  (forall c y, make_identifier x = c :: y -> ~ (48 <= c <= 57)%N) /\
  (forall l r, make_identifier x <> l ++ UND :: UND :: r) /\
  make_identifier (make_identifier x) = make_identifier x /\
  (make_identifier x = [] <->
     forall c, In c x ->
       ~ (97 <= c <= 122 \/ 65 <= c <= 90 \/ 48 <= c <= 57 \/ c = UND \/ c = DASH)%N).
Proof.
  split; [|split; [|split; [|split]]].
  - intros c Hc. apply is_word_spec. pose proof (make_identifier_word x) as H.
    rewrite forallb_forall in H. apply H; exact Hc.
  - intros c y H Hd. apply make_identifier_first in H. apply is_digit_spec in Hd. congruence.
  - apply no_double_spec, make_identifier_no_double.
  - apply make_identifier_idem.
  - split.
    + intros E c Hc Hw. apply (make_identifier_nonempty x c Hc); [|exact E].
      destruct (N.eq_dec c DASH) as [->|Hd]; [right; reflexivity|left].
      apply is_word_spec. tauto.
    + intros H. apply make_identifier_empty. intros c Hc. specialize (H c Hc). split.
      * destruct (is_word c) eqn:E; [|reflexivity]. apply is_word_spec in E. tauto.
      * intros ->. tauto.
Qed.

Lemma zsh_join_quoted_noeq xs :
  (forall y, ~ In (EQ :: y) xs) -> zsh_words (join_quoted xs [SP]) = Some xs.
Proof.
  intros H. apply zsh_join_quoted. intros x Hx. right. destruct x as [|c x]; [discriminate|].
  cbn. intros ->. exact (H x Hx).
Qed.
