(** * Proofs: how zsh reads the texts that [quote] and [escape_colon_in_quoted_string] make. *)
From Verif Require Import Base PyStr Shell ShellParser ShellProofs Cli ZshUtils SpecZsh.
Open Scope list_scope.
Local Open Scope N_scope.

Definition wmarks (w : option (list mark)) : list mark := match w with None => [] | Some v => v end.
Definition quoted (x : str) : list mark := map (fun c => (c, true)) x.
Definition bare (x : str) : list mark := map (fun c => (c, false)) x.

Lemma zpush_val w c q : zpush w c q = Some (wmarks w ++ [(c, q)]).
Proof. destruct w; reflexivity. Qed.
Lemma zstart_val w : zstart w = Some (wmarks w).
Proof. destruct w; reflexivity. Qed.
Lemma fst_quoted x : map fst (quoted x) = x.
Proof. unfold quoted. rewrite map_map. apply map_id. Qed.
Lemma fst_bare x : map fst (bare x) = x.
Proof. unfold bare. rewrite map_map. apply map_id. Qed.
Lemma quoted_app a b : quoted (a ++ b) = quoted a ++ quoted b.
Proof. apply map_app. Qed.
Lemma bare_app a b : bare (a ++ b) = bare a ++ bare b.
Proof. apply map_app. Qed.
Lemma has_brace_app a b : has_brace (a ++ b) = has_brace a || has_brace b.
Proof. apply existsb_app. Qed.
Lemma has_brace_quoted x : has_brace (quoted x) = false.
Proof. induction x as [| c x IH]; [reflexivity |]. cbn. unfold is_mark. cbn. now rewrite !andb_false_r. Qed.
Lemma has_brace_bare x : ~ In LBRC x -> ~ In RBRC x -> has_brace (bare x) = false.
Proof.
  induction x as [| c x IH]; intros H1 H2; [reflexivity |]. cbn. unfold is_mark. cbn [fst snd negb]. rewrite !andb_true_r.
  cbn in H1, H2. destruct (N.eqb_spec c LBRC) as [-> | _]; [tauto |]. destruct (N.eqb_spec c RBRC) as [-> | _]; [tauto |].
  apply IH; tauto.
Qed.

(** ** Reading *)

(** characters that are read as they are *)
Definition zplain (c : N) : bool := negb (zsh_special c || memc c [SQ; DQ; BS; SP; TAB; LF]).

Lemma zread_char w c rest : zplain c = true -> (w = None -> c <> EQ) ->
  zread ZPlain w (c :: rest) = zread ZPlain (Some (wmarks w ++ [(c, false)])) rest.
Proof.
  unfold zplain. intros H He. apply negb_true_iff, orb_false_iff in H as [H1 H2].
  apply memc_false in H2. cbn [In] in H2. cbn [zread].
  destruct (N.eqb_spec c SQ) as [-> | _]; [tauto |]. destruct (N.eqb_spec c DQ) as [-> | _]; [tauto |]. destruct (N.eqb_spec c BS) as [-> | _]; [tauto |].
  replace (memc c [SP; TAB; LF]) with false by (symmetry; apply memc_false; cbn [In]; tauto). rewrite H1.
  replace (N.eqb c EQ && negb (is_some w))%bool with false.
  { now rewrite zpush_val. }
  symmetry. destruct w; [apply andb_false_r |]. specialize (He eq_refl). now destruct (N.eqb_spec c EQ).
Qed.
Lemma zread_bare x : forall w rest, forallb zplain x = true -> x <> [] -> (w = None -> hd 0 x <> EQ) ->
  zread ZPlain w (x ++ rest) = zread ZPlain (Some (wmarks w ++ bare x)) rest.
Proof.
  induction x as [| c x IH]; intros w rest H Hn He; [congruence |]. cbn [forallb] in H. apply andb_true_iff in H as [Hc Hx].
  cbn [app]. rewrite zread_char by assumption. destruct x as [| d x]; [reflexivity |].
  rewrite IH by (assumption || discriminate). cbn [wmarks]. rewrite <- app_assoc. reflexivity.
Qed.
Lemma zread_bare_some x v rest : forallb zplain x = true ->
  zread ZPlain (Some v) (x ++ rest) = zread ZPlain (Some (v ++ bare x)) rest.
Proof.
  intros H. destruct x as [| c x]; [cbn; now rewrite app_nil_r |]. rewrite zread_bare by (assumption || discriminate). reflexivity.
Qed.
Lemma safe_zplain c : is_safe c = true -> zplain c = true.
Proof.
  intros H. destruct (zplain c) eqn:E; [reflexivity |]. exfalso. unfold zplain in E. apply negb_false_iff, orb_true_iff in E.
  unfold zsh_special in E. rewrite !memc_In in E. cbn [In] in E.
  destruct E as [E | E]; repeat (destruct E as [<- | E]; [vm_compute in H; discriminate |]); exact E.
Qed.
Lemma safe_no_brace x : forallb is_safe x = true -> ~ In LBRC x /\ ~ In RBRC x.
Proof. intros H. rewrite forallb_forall in H. split; intros Hi; specialize (H _ Hi); vm_compute in H; discriminate. Qed.
Lemma zread_single x : forall w rest, ~ In SQ x ->
  zread ZSingle (Some w) (x ++ SQ :: rest) = zread ZPlain (Some (w ++ quoted x)) rest.
Proof.
  induction x as [| c x IH]; intros w rest H; [cbn; now rewrite app_nil_r |]. cbn [app zread].
  destruct (N.eqb_spec c SQ) as [-> | _]; [cbn in H; tauto |]. rewrite !zpush_val; cbn [wmarks]. rewrite IH by (cbn in H; tauto).
  cbn [quoted map]. rewrite <- app_assoc. reflexivity.
Qed.
Lemma zread_sq x w rest : ~ In SQ x ->
  zread ZPlain w (SQ :: x ++ SQ :: rest) = zread ZPlain (Some (wmarks w ++ quoted x)) rest.
Proof. intros H. cbn [zread]. rewrite N.eqb_refl, zstart_val. now apply zread_single. Qed.
Lemma zread_double x : forall w rest, ~ In DQ x ->
  zread ZDouble (Some w) (concat (map dq_esc x) ++ DQ :: rest) = zread ZPlain (Some (w ++ quoted x)) rest.
Proof.
  induction x as [| c x IH]; intros w rest H; [cbn; now rewrite app_nil_r |].
  assert (Hs : zread ZDouble (Some w) (dq_esc c ++ concat (map dq_esc x) ++ DQ :: rest)
               = zread ZDouble (Some (w ++ [(c, true)])) (concat (map dq_esc x) ++ DQ :: rest)).
  { unfold dq_esc at 1. destruct (N.eqb_spec c BS) as [-> | Hb]; [reflexivity |].
    destruct (N.eqb_spec c DOLLAR) as [-> | Hd]; [reflexivity |]. destruct (N.eqb_spec c BTICK) as [-> | Ht]; [reflexivity |].
    cbn [app zread]. destruct (N.eqb_spec c DQ) as [-> | Hq]; [cbn in H; tauto |].
    rewrite (proj2 (N.eqb_neq _ _) Hb), (proj2 (N.eqb_neq _ _) Hd), (proj2 (N.eqb_neq _ _) Ht). reflexivity. }
  cbn [map concat]. rewrite <- app_assoc, Hs, IH by (cbn in H; tauto). cbn [quoted map]. rewrite <- app_assoc. reflexivity.
Qed.
Lemma zread_dq x w rest : ~ In DQ x ->
  zread ZPlain w (DQ :: concat (map dq_esc x) ++ DQ :: rest) = zread ZPlain (Some (wmarks w ++ quoted x)) rest.
Proof. intros H. cbn [zread]. cbn [N.eqb Pos.eqb]. rewrite zstart_val. now apply zread_double. Qed.
Lemma zread_mixed x : forall w rest,
  zread ZSingle (Some w) (replace_c SQ [SQ; DQ; SQ; DQ; SQ] x ++ SQ :: rest) = zread ZPlain (Some (w ++ quoted x)) rest.
Proof.
  induction x as [| c x IH]; intros w rest; [cbn; now rewrite app_nil_r |]. cbn [replace_c].
  destruct (N.eqb_spec c SQ) as [-> | Hc].
  - rewrite <- app_assoc. cbn [app zread]. cbn [N.eqb Pos.eqb]; rewrite !zpush_val, ?zstart_val; cbn [wmarks]. rewrite IH. cbn [quoted map]. rewrite <- app_assoc. reflexivity.
  - cbn [app zread]. rewrite (proj2 (N.eqb_neq _ _) Hc). rewrite !zpush_val; cbn [wmarks]. rewrite IH. cbn [quoted map]. rewrite <- app_assoc. reflexivity.
Qed.
Lemma zread_sq_mixed x w rest :
  zread ZPlain w (SQ :: replace_c SQ [SQ; DQ; SQ; DQ; SQ] x ++ SQ :: rest) = zread ZPlain (Some (wmarks w ++ quoted x)) rest.
Proof. cbn [zread]. rewrite N.eqb_refl, zstart_val. apply zread_mixed. Qed.

(** [text] is read as the characters [x], none of them an unquoted brace. *)
Definition reads (text x : str) : Prop :=
  forall v rest, exists ms, map fst ms = x /\ has_brace ms = false /\
    zread ZPlain (Some v) (text ++ rest) = zread ZPlain (Some (v ++ ms)) rest.
Lemma reads_nil : reads [] [].
Proof. intros v rest. exists []. rewrite app_nil_r. auto. Qed.
Lemma reads_app t1 t2 x1 x2 : reads t1 x1 -> reads t2 x2 -> reads (t1 ++ t2) (x1 ++ x2).
Proof.
  intros H1 H2 v rest. destruct (H1 v (t2 ++ rest)) as (m1 & E1 & B1 & R1). destruct (H2 (v ++ m1) rest) as (m2 & E2 & B2 & R2).
  exists (m1 ++ m2). rewrite map_app, E1, E2, has_brace_app, B1, B2, <- app_assoc, R1, R2, app_assoc. auto.
Qed.
Lemma reads_bare x : forallb zplain x = true -> ~ In LBRC x -> ~ In RBRC x -> reads x x.
Proof. intros H H1 H2 v rest. exists (bare x). rewrite fst_bare, has_brace_bare by assumption. repeat split. now apply zread_bare_some. Qed.
Lemma reads_sq x : ~ In SQ x -> reads (SQ :: x ++ [SQ]) x.
Proof.
  intros H v rest. exists (quoted x). rewrite fst_quoted, has_brace_quoted. repeat split.
  cbn [app]. rewrite <- app_assoc. now apply (zread_sq x (Some v)).
Qed.
Lemma reads_mixed x : reads (SQ :: replace_c SQ [SQ; DQ; SQ; DQ; SQ] x ++ [SQ]) x.
Proof.
  intros v rest. exists (quoted x). rewrite fst_quoted, has_brace_quoted. repeat split.
  cbn [app]. rewrite <- app_assoc. apply (zread_sq_mixed x (Some v)).
Qed.
Lemma reads_quote x : reads (quote x) x.
Proof.
  destruct (quote_cases x) as [[Hf [Hn ->]] | [[_ [Hs ->]] | [[_ [_ [Hd ->]]] | [_ [_ [_ ->]]]]]].
  - apply reads_bare; [| now apply safe_no_brace ..]. rewrite forallb_forall in *. intros c Hc. apply safe_zplain. auto.
  - now apply reads_sq.
  - intros v rest. exists (quoted x). rewrite fst_quoted, has_brace_quoted. repeat split.
    cbn [app]. rewrite <- app_assoc. now apply (zread_dq x (Some v)).
  - apply reads_mixed.
Qed.
(** the first part of a word *)
Lemma zread_first_sq x rest : ~ In SQ x -> zread ZPlain None (SQ :: x ++ SQ :: rest) = zread ZPlain (Some (quoted x)) rest.
Proof. intros H. now apply (zread_sq x None). Qed.
Lemma reads_first_quote x rest : needs_quote x = true ->
  exists ms, map fst ms = x /\ has_brace ms = false /\ zread ZPlain None (quote x ++ rest) = zread ZPlain (Some ms) rest.
Proof.
  intros Hq. exists (quoted x). rewrite fst_quoted, has_brace_quoted. repeat split.
  destruct (quote_cases x) as [[Hf [Hn _]] | [[_ [Hs ->]] | [[_ [_ [Hd ->]]] | [_ [_ [_ ->]]]]]].
  - unfold needs_quote in Hq. destruct x; [congruence |]. rewrite Hf in Hq. discriminate.
  - cbn [app]. rewrite <- app_assoc. now apply (zread_sq x None).
  - cbn [app]. rewrite <- app_assoc. now apply (zread_dq x None).
  - cbn [app]. rewrite <- app_assoc. apply (zread_sq_mixed x None).
Qed.

(** ** Escaped colons in quoted strings *)

Lemma escape_colon_app a b : escape_colon (a ++ b) = escape_colon a ++ escape_colon b.
Proof. apply replace_c_app. Qed.
Lemma escape_colon_id x : ~ In COLON x -> escape_colon x = x.
Proof.
  unfold escape_colon. induction x as [| c x IH]; intros H; [reflexivity |]. cbn [replace_c].
  destruct (N.eqb_spec c COLON) as [-> | _]; [cbn in H; tauto |]. now rewrite IH by (cbn in H; tauto).
Qed.
Lemma escape_colon_In c x : c <> COLON -> c <> BS -> In c (escape_colon x) <-> In c x.
Proof.
  intros H1 H2. unfold escape_colon. induction x as [| d x IH]; [reflexivity |]. cbn [replace_c].
  destruct (N.eqb_spec d COLON) as [-> | Hd].
  - cbn [app In]. rewrite IH. intuition congruence.
  - cbn [In]. rewrite IH. reflexivity.
Qed.
Lemma quote_colon x : In COLON (quote x) <-> In COLON x.
Proof.
  destruct (quote_cases x) as [[_ [_ ->]] | [[_ [_ ->]] | [[_ [_ [_ ->]]] | [_ [_ [_ ->]]]]]].
  - reflexivity.
  - cbn [In]. rewrite in_app_iff. cbn [In]. intuition discriminate.
  - cbn [In]. rewrite in_app_iff. cbn [In].
    assert (H : In COLON (concat (map dq_esc x)) <-> In COLON x); [| rewrite H; intuition discriminate].
    induction x as [| c x IH]; [reflexivity |]. cbn [map concat]. rewrite in_app_iff, IH. unfold dq_esc. cbn [In].
    destruct (N.eqb_spec c BS) as [-> | _]; [cbn; intuition discriminate |].
    destruct (N.eqb_spec c DOLLAR) as [-> | _]; [cbn; intuition discriminate |].
    destruct (N.eqb_spec c BTICK) as [-> | _]; [cbn; intuition discriminate |]. cbn. tauto.
  - cbn [In]. rewrite in_app_iff. cbn [In].
    assert (H : In COLON (replace_c SQ [SQ; DQ; SQ; DQ; SQ] x) <-> In COLON x); [| rewrite H; intuition discriminate].
    induction x as [| c x IH]; [reflexivity |]. cbn [replace_c]. destruct (N.eqb_spec c SQ) as [-> | _].
    + rewrite in_app_iff, IH. cbn. intuition discriminate.
    + cbn [In]. rewrite IH. reflexivity.
Qed.

Lemma single_quote_loop_until a rest : ~ In SQ a -> single_quote_loop (a ++ SQ :: rest) = Ok (a, rest).
Proof.
  induction a as [| c a IH]; intros H; [reflexivity |]. cbn [app single_quote_loop].
  destruct (N.eqb_spec c SQ) as [-> | _]; [cbn in H; tauto |]. now rewrite IH by (cbn in H; tauto).
Qed.
Lemma double_quote_loop_until a rest : ~ In DQ a -> ~ In BS a -> double_quote_loop (a ++ DQ :: rest) = Ok (a, rest).
Proof.
  induction a as [| c a IH]; intros H1 H2; [reflexivity |]. cbn [app double_quote_loop].
  destruct (N.eqb_spec c BS) as [-> | _]; [cbn in H2; tauto |]. destruct (N.eqb_spec c DQ) as [-> | _]; [cbn in H1; tauto |].
  now rewrite IH by (cbn in H1, H2; tauto).
Qed.
(** the same text, outside of quotes and in double quotes *)
Definition escape_colon2 (x : str) : str := replace_c COLON [BS; BS; COLON] x.
Lemma loop_safe x : forall fuel, (List.length x < fuel)%nat -> forallb is_safe x = true ->
  escape_colon_loop fuel x = Ok (escape_colon2 x).
Proof.
  induction x as [| c x IH]; intros [| fuel] Hf H; try (cbn in Hf; lia); [reflexivity |]. cbn [forallb] in H.
  apply andb_true_iff in H as [Hc Hx]. cbn [escape_colon_loop].
  destruct (N.eqb_spec c SQ) as [-> | _]; [vm_compute in Hc; discriminate |].
  destruct (N.eqb_spec c DQ) as [-> | _]; [vm_compute in Hc; discriminate |].
  rewrite IH by (cbn in Hf; lia || assumption). unfold escape_colon2. cbn [replace_c bind]. destruct (N.eqb_spec c COLON) as [-> | _]; reflexivity.
Qed.
Lemma first_sq (a : str) : ~ In SQ a \/ exists a1 a2, a = a1 ++ SQ :: a2 /\ ~ In SQ a1.
Proof.
  induction a as [| c a IH]; [now left |]. destruct (N.eq_dec c SQ) as [-> | Hc]; [right; exists [], a; auto |].
  destruct IH as [IH | (a1 & a2 & -> & H)]; [left; cbn; intuition congruence |].
  right. exists (c :: a1), a2. split; [reflexivity |]. cbn. intuition congruence.
Qed.
Lemma replace_id c r a : ~ In c a -> replace_c c r a = a.
Proof.
  induction a as [| d a IH]; intros H; [reflexivity |]. cbn [replace_c]. destruct (N.eqb_spec d c) as [-> | _]; [cbn in H; tauto |].
  now rewrite IH by (cbn in H; tauto).
Qed.
Notation R := (replace_c SQ [SQ; DQ; SQ; DQ; SQ]).
Lemma R_app a b : R (a ++ b) = R a ++ R b.
Proof. apply replace_c_app. Qed.
Lemma loop_mixed n : forall a fuel, (List.length a <= n)%nat -> (List.length (SQ :: R a ++ [SQ]) < fuel)%nat ->
  escape_colon_loop fuel (SQ :: R a ++ [SQ]) = Ok (SQ :: R (escape_colon a) ++ [SQ]).
Proof.
  induction n as [| n IH]; intros a fuel Hn Hf.
  { destruct a; [| cbn in Hn; lia]. destruct fuel as [| [| fuel]]; cbn in Hf; try lia. reflexivity. }
  destruct (first_sq a) as [H | (a1 & a2 & -> & H)].
  - rewrite (replace_id SQ _ a) by assumption. rewrite replace_id in Hf by assumption.
    destruct fuel as [| [| fuel]]; try (cbn in Hf; rewrite app_length in Hf; cbn in Hf; lia).
    cbn [escape_colon_loop]. rewrite N.eqb_refl, single_quote_loop_until by assumption. cbn [bind].
    rewrite (replace_id SQ _ (escape_colon a)); [reflexivity |]. rewrite escape_colon_In by discriminate. assumption.
  - rewrite R_app in *. cbn [replace_c] in *. rewrite N.eqb_refl in *. rewrite (replace_id SQ _ a1) in * by assumption.
    repeat rewrite <- app_assoc in *. cbn [app] in *.
    destruct fuel as [| [| fuel]]; try (cbn in Hf; lia).
    cbn [escape_colon_loop]. rewrite N.eqb_refl. rewrite single_quote_loop_until by assumption. cbn [bind].
    replace (DQ =? SQ) with false by reflexivity. rewrite N.eqb_refl.
    change (double_quote_loop (SQ :: DQ :: SQ :: R a2 ++ [SQ])) with (Ok ([SQ], SQ :: R a2 ++ [SQ]) : res (str * str)).
    cbn [bind]. rewrite IH.
    + cbn [bind replace_c]. f_equal. rewrite escape_colon_app, R_app. f_equal.
      rewrite (replace_id SQ _ (escape_colon a1)) by (rewrite escape_colon_In by discriminate; assumption).
      unfold escape_colon at 3. cbn [replace_c]. replace (SQ =? COLON) with false by reflexivity. cbn [replace_c]. rewrite N.eqb_refl.
      repeat rewrite <- app_assoc. cbn [app]. reflexivity.
    + rewrite app_length in Hn. cbn in Hn. lia.
    + cbn [List.length] in *. rewrite !app_length in *. cbn [List.length] in *. rewrite !app_length in *. cbn [List.length] in *. lia.
Qed.

Lemma zread_double_colon x : forall w rest, ~ In DQ x -> ~ In BS x -> ~ In DOLLAR x -> ~ In BTICK x ->
  zread ZDouble (Some w) (escape_colon2 x ++ DQ :: rest) = zread ZPlain (Some (w ++ quoted (escape_colon x))) rest.
Proof.
  unfold escape_colon2, escape_colon. induction x as [| c x IH]; intros w rest H1 H2 H3 H4; [cbn; now rewrite app_nil_r |]. cbn [replace_c].
  destruct (N.eqb_spec c COLON) as [-> | Hc].
  - rewrite <- app_assoc. cbn [app zread]. cbn [N.eqb Pos.eqb orb memc existsb]; rewrite !zpush_val; cbn [wmarks]. rewrite IH by (cbn in H1, H2, H3, H4; tauto).
    cbn [quoted map]. rewrite <- !app_assoc. reflexivity.
  - cbn [app zread]. destruct (N.eqb_spec c DQ) as [-> | _]; [cbn in H1; tauto |]. destruct (N.eqb_spec c BS) as [-> | _]; [cbn in H2; tauto |].
    destruct (N.eqb_spec c DOLLAR) as [-> | _]; [cbn in H3; tauto |]. destruct (N.eqb_spec c BTICK) as [-> | _]; [cbn in H4; tauto |].
    cbn [orb]; rewrite !zpush_val; cbn [wmarks]. rewrite IH by (cbn in H1, H2, H3, H4; tauto). cbn [quoted map]. rewrite <- app_assoc. reflexivity.
Qed.
Lemma reads_safe_colon x : forallb is_safe x = true -> reads (escape_colon2 x) (escape_colon x).
Proof.
  unfold escape_colon2, escape_colon. induction x as [| c x IH]; intros H; [apply reads_nil |]. cbn [forallb] in H. apply andb_true_iff in H as [Hc Hx]. cbn [replace_c].
  destruct (N.eqb_spec c COLON) as [-> | _].
  - apply reads_app; [| auto]. intros v rest. exists [(BS, true); (COLON, false)]. repeat split.
    cbn [app zread]. cbn [N.eqb Pos.eqb memc existsb orb]; unfold zsh_special; cbn [N.eqb Pos.eqb memc existsb orb andb is_some negb]. rewrite !zpush_val; cbn [wmarks is_some negb andb]. rewrite <- app_assoc. reflexivity.
  - apply (reads_app [c] _ [c]); [| auto]. apply reads_bare; [cbn; now rewrite safe_zplain | |]; intros [-> | []]; vm_compute in Hc; discriminate.
Qed.
Lemma action_read a : simple_action a ->
  exists e, escape_colon_in_quoted_string (quote a) = Ok e /\ reads e (escape_colon a).
Proof.
  intros Ha. unfold escape_colon_in_quoted_string.
  destruct (memc COLON (quote a)) eqn:Ec; cbn [negb].
  2: { apply memc_false in Ec. rewrite quote_colon in Ec. exists (quote a). split; [reflexivity |]. rewrite escape_colon_id by assumption. apply reads_quote. }
  apply memc_In in Ec. rewrite quote_colon in Ec.
  destruct (quote_cases a) as [[Hf [Hn ->]] | [[_ [Hs ->]] | [[_ [Hs [Hd Hq]]] | [_ [_ [_ ->]]]]]].
  - exists (escape_colon2 a). split; [apply loop_safe; [lia | assumption] | now apply reads_safe_colon].
  - exists (SQ :: escape_colon a ++ [SQ]). split.
    + replace (SQ :: a ++ [SQ]) with (SQ :: R a ++ [SQ]) by now rewrite replace_id.
      rewrite (loop_mixed (List.length a)); [| lia ..].
      rewrite replace_id; [reflexivity |]. rewrite escape_colon_In by discriminate. assumption.
    + apply reads_sq. rewrite escape_colon_In by discriminate. assumption.
  - destruct Ha as [Ha | [Ha | [Ha | (H1 & H2 & H3)]]]; try contradiction.
    assert (Hi : concat (map dq_esc a) = a).
    { clear - H1 H2 H3. induction a as [| c a IH]; [reflexivity |]. cbn [map concat]. rewrite IH by (cbn in H1, H2, H3; tauto). unfold dq_esc.
      destruct (N.eqb_spec c BS) as [-> | _]; [cbn in H1; tauto |]. destruct (N.eqb_spec c DOLLAR) as [-> | _]; [cbn in H2; tauto |].
      destruct (N.eqb_spec c BTICK) as [-> | _]; [cbn in H3; tauto |]. reflexivity. }
    rewrite Hq, Hi. exists (DQ :: escape_colon2 a ++ [DQ]). split.
    + cbn [List.length]. rewrite app_length, Nat.add_1_r. cbn [escape_colon_loop]. cbn [N.eqb Pos.eqb].
      rewrite double_quote_loop_until by assumption. cbn [bind app]. fold (escape_colon2 a). reflexivity.
    + intros v rest. exists (quoted (escape_colon a)). rewrite fst_quoted, has_brace_quoted. repeat split.
      cbn [app zread]. cbn [N.eqb Pos.eqb zstart]. rewrite <- app_assoc. now apply zread_double_colon.
  - exists (SQ :: R (escape_colon a) ++ [SQ]). split; [apply (loop_mixed (List.length a)); lia | apply reads_mixed].
Qed.
