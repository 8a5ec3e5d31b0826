(** * Proofs: zsh runs the code of a function's options as it is meant. *)
From Verif Require Import Base PyStr StrUtils StrUtilsProofs Shell ShellParser ShellProofs Cli When SpecWhen ZshUtils Zsh
  SpecZsh SpecChoices SpecZshCode ZshCode ZshReading ChoicesZsh.
From Coq Require Import Lia.
Open Scope list_scope.

(** ** Quotes *)
Fixpoint level (m : zmode) (x : str) : option zmode :=
  match x with
  | [] => Some m
  | c :: x' =>
      match m with
      | ZPlain => if memc c [BS; LF] then None else level (zquoting m c) x'
      | _ => level (zquoting m c) x'
      end
  end.
Definition neutral (x : str) : Prop := level ZPlain x = Some ZPlain.
Lemma level_app a b : forall m m', level m a = Some m' -> level m (a ++ b) = level m' b.
Proof.
  induction a as [| c a IH]; intros m m' H; [injection H as <-; reflexivity |]. cbn [level app] in *.
  destruct m; try (now apply IH). destruct (memc c [BS; LF]); [discriminate | now apply IH].
Qed.
Lemma neutral_app a b : neutral a -> neutral b -> neutral (a ++ b).
Proof. intros Ha Hb. unfold neutral. rewrite (level_app a b _ _ Ha). exact Hb. Qed.
Lemma neutral_nil : neutral [].
Proof. reflexivity. Qed.
Lemma to_joined_end r x : forall m, level m x = Some ZPlain -> to_joined m (x ++ BS :: LF :: r) = Some (x, r).
Proof.
  induction x as [| c x IH]; intros m H; [injection H as ->; reflexivity |]. cbn [level app to_joined] in *.
  destruct m; try (now rewrite (IH _ H)). unfold memc in H. cbn [existsb] in H. rewrite orb_false_r in H.
  destruct (N.eqb c BS), (N.eqb c LF); try discriminate H. cbn [orb] in H. now rewrite (IH _ H).
Qed.
Lemma neutral_plain x : forallb (fun c => negb (memc c [SQ; DQ; BS; LF])) x = true -> neutral x.
Proof.
  unfold neutral. induction x as [| c x IH]; intros H; [reflexivity |]. cbn [forallb] in H. apply andb_prop in H as [Hc Hx].
  apply negb_true_iff in Hc. unfold memc in Hc. cbn [existsb] in Hc. apply orb_false_iff in Hc as [H1 Hc]. apply orb_false_iff in Hc as [H2 Hc].
  apply orb_false_iff in Hc as [H3 Hc]. apply orb_false_iff in Hc as [H4 _]. cbn [level]. unfold memc. cbn [existsb]. rewrite H3, H4. cbn [orb].
  cbn [zquoting]. rewrite H1, H2, H3. now apply IH.
Qed.
Lemma neutral_join l : Forall neutral l -> neutral (join [SP] l).
Proof.
  induction 1 as [| a l Ha Hl IH]; [reflexivity |]. destruct l as [| b l]; [exact Ha |].
  change (join [SP] (a :: b :: l)) with (a ++ [SP] ++ join [SP] (b :: l)). apply neutral_app; [exact Ha |]. apply neutral_app; [reflexivity | exact IH].
Qed.
Lemma level_single x : ~ In SQ x -> level ZSingle (x ++ [SQ]) = Some ZPlain.
Proof.
  induction x as [| c x IH]; intros H; [reflexivity |]. cbn [app level zquoting]. destruct (N.eqb_spec c SQ) as [-> | _]; [exfalso; apply H; now left |].
  apply IH. intros K. apply H. now right.
Qed.
Lemma level_double x : ~ In DQ x -> level ZDouble (replace_c BTICK [BS; BTICK] (replace_c DOLLAR [BS; DOLLAR] (replace_c BS [BS; BS] x)) ++ [DQ]) = Some ZPlain.
Proof.
  induction x as [| c x IH]; intros H; [reflexivity |].
  assert (N.eqb c DQ = false) as Hq by (apply N.eqb_neq; intros ->; apply H; now left).
  assert (~ In DQ x) as Hx by (intros K; apply H; now right). specialize (IH Hx).
  unfold replace_c in IH |- *. cbn [flat_map]. destruct (N.eqb_spec c BS) as [-> | H1].
  - cbn [app flat_map N.eqb]. cbn. exact IH.
  - cbn [app flat_map]. destruct (N.eqb_spec c DOLLAR) as [-> | H2].
    + cbn. exact IH.
    + cbn [app flat_map]. destruct (N.eqb_spec c BTICK) as [-> | H3].
      * cbn. exact IH.
      * cbn [app level zquoting]. rewrite Hq. apply N.eqb_neq in H1. rewrite H1. exact IH.
Qed.
Lemma level_both x : level ZSingle (replace_c SQ [SQ; DQ; SQ; DQ; SQ] x ++ [SQ]) = Some ZPlain.
Proof.
  induction x as [| c x IH]; [reflexivity |]. unfold replace_c in IH |- *. cbn [flat_map]. destruct (N.eqb_spec c SQ) as [-> | H].
  - cbn [app]. cbn. exact IH.
  - cbn [app level zquoting]. apply N.eqb_neq in H. rewrite H. exact IH.
Qed.
Lemma safe_plain x : forallb is_safe x = true -> forallb (fun c => negb (memc c [SQ; DQ; BS; LF])) x = true.
Proof.
  rewrite !forallb_forall. intros H c Hc. specialize (H c Hc). destruct (memc c [SQ; DQ; BS; LF]) eqn:E; [| reflexivity].
  apply memc_In in E. destruct E as [<- | [<- | [<- | [<- | []]]]]; vm_compute in H; discriminate.
Qed.
Lemma neutral_quote x : neutral (quote x).
Proof.
  unfold quote, quote_gen. cbn [negb]. rewrite andb_false_r. destruct (needs_quote x) eqn:En; cbn [negb].
  - destruct (memc SQ x) eqn:E1; cbn [negb].
    + destruct (memc DQ x) eqn:E2; cbn [negb].
      * exact (level_both x).
      * apply level_double. now apply memc_false in E2.
    + apply level_single. now apply memc_false in E1.
  - unfold needs_quote in En. apply negb_false_iff in En. destruct x; [reflexivity |]. apply neutral_plain, safe_plain, En.
Qed.
Lemma lower_quoting m c : zquoting m (lower_c c) = zquoting m c /\ memc (lower_c c) [BS; LF] = memc c [BS; LF].
Proof.
  unfold lower_c. destruct (is_upper c) eqn:E; [| split; reflexivity]. unfold is_upper in E. apply andb_prop in E as [H1 H2]. apply N.leb_le in H1, H2.
  assert (forall d, N.eqb d 39 = false \/ N.eqb d 39 = true) by (intros; destruct (N.eqb _ _); auto).
  assert (H39 : forall d, In d [SQ; DQ; BS; LF] -> N.eqb (c + 32) d = false /\ N.eqb c d = false).
  { intros d [<- | [<- | [<- | [<- | []]]]]; split; apply N.eqb_neq; lia. }
  destruct (H39 SQ) as [A1 A2]; [now left |]. destruct (H39 DQ) as [B1 B2]; [right; now left |]. destruct (H39 BS) as [C1 C2]; [do 2 right; now left |]. destruct (H39 LF) as [D1 D2]; [do 3 right; now left |].
  unfold memc. cbn [existsb]. rewrite C1, C2, D1, D2. split; [| reflexivity]. destruct m; cbn [zquoting]; rewrite ?A1, ?A2, ?B1, ?B2, ?C1, ?C2; reflexivity.
Qed.
Lemma level_lower x : forall m, level m (lower x) = level m x.
Proof.
  induction x as [| c x IH]; intros m; [reflexivity |]. cbn [lower map level]. fold (lower x). destruct (lower_quoting m c) as [E1 E2]. rewrite E1, E2, IH. reflexivity.
Qed.
Lemma neutral_quoted l : neutral (join_quoted l [SP]).
Proof. apply neutral_join. apply Forall_forall. intros x Hx. apply in_map_iff in Hx as (y & <- & _). apply neutral_quote. Qed.

(** ** The beginning of a condition *)
Definition visible (x : str) : Prop := match x with c :: _ => memc c [SP; TAB; LF] = false | [] => False end.
Lemma visible_skip x r : visible x -> skip_blanks (x ++ r) = x ++ r.
Proof. destruct x as [| c x]; intros H; [destruct H |]. cbn [app skip_blanks]. cbn [visible] in H. now rewrite H. Qed.
Lemma visible_app x y : visible x -> visible (x ++ y).
Proof. destruct x; auto. intros []. Qed.
Lemma visible_join a l : visible a -> visible (join [SP] (a :: l)).
Proof. intros H. destruct l as [| b l]; [exact H |]. change (join [SP] (a :: b :: l)) with (a ++ [SP] ++ join [SP] (b :: l)). now apply visible_app. Qed.
Lemma visible_safe c x : is_safe c = true -> visible (c :: x).
Proof.
  intros H. cbn [visible]. destruct (memc c [SP; TAB; LF]) eqn:E; [| reflexivity]. apply memc_In in E.
  destruct E as [<- | [<- | [<- | []]]]; vm_compute in H; discriminate.
Qed.
Lemma visible_quote x : visible (quote x).
Proof.
  unfold quote, quote_gen. cbn [negb]. rewrite andb_false_r. destruct (needs_quote x) eqn:En; cbn [negb].
  - destruct (memc SQ x); cbn [negb]; [destruct (memc DQ x) |]; reflexivity.
  - unfold needs_quote in En. apply negb_false_iff in En. destruct x as [| c x]; [discriminate |]. cbn [forallb] in En. apply andb_prop in En as [En _]. now apply visible_safe.
Qed.
Lemma word_safe x : forallb is_word x = true -> forallb is_safe x = true.
Proof. rewrite !forallb_forall. intros H c Hc. unfold is_safe. now rewrite (H c Hc). Qed.

(** ** Conditions *)
Lemma uint_plain d : forallb (fun c => negb (memc c [SQ; DQ; BS; LF])) (uint_str d) = true.
Proof. induction d; cbn [uint_str forallb]; try rewrite IHd; reflexivity. Qed.
Lemma z_plain z : neutral (z_str z).
Proof. apply neutral_plain. unfold z_str. destruct (Z.to_int z); [apply uint_plain |]. cbn [forallb]. now rewrite uint_plain. Qed.

Definition sound_object (o : wobj) : Prop := match o with PositionalCount op _ => In op operators | _ => True end.
Lemma mk_test_sound ere args o : mk_test ere args = Ok o -> sound_object o.
Proof.
  unfold mk_test. destruct args as [| cmd args]; [discriminate |]. destruct (str_eqb cmd _).
  { unfold mk_option_is. destruct (strip_flags _ _ _) as [[ic any] l]. destruct (split_dashes l) as [os vs]. destruct (negb _); [discriminate |].
    destruct os; [discriminate |]. destruct vs; [discriminate |]. intros H. injection H as <-. exact I. }
  destruct (str_eqb cmd _).
  { unfold mk_option_match. destruct (strip_flags _ _ _) as [[ic any] l]. destruct (split_dashes l) as [os vs].
    intros H. destruct vs as [| v [| ? ?]]; [| | discriminate H]; destruct (negb _); try discriminate H; destruct os; try discriminate H.
    destruct v; [discriminate H |]. destruct (ere _); [| discriminate H]. injection H as <-. exact I. }
  destruct (str_eqb cmd _).
  { destruct args; [discriminate |]. intros H. injection H as <-. exact I. }
  destruct (str_eqb cmd _).
  { unfold mk_positional_count. destruct args as [| op [| n [| ? ?]]]; try discriminate; destruct (mems op operators) eqn:E; cbn [negb]; try discriminate.
    destruct (py_int n); [| discriminate]. intros H. injection H as <-. cbn [sound_object]. apply existsb_exists in E as (y & Hy & Ey). now apply str_eqb_eq in Ey as ->. }
  destruct (str_eqb cmd _); [| discriminate].
  unfold mk_positional_contains. destruct args as [| a args]; [discriminate |]. intros H.
  destruct (str_eqb a (s "-i")).
  - destruct args as [| n values]; [discriminate H |]. destruct (py_int n); [| discriminate H]. destruct values; [discriminate H |]. injection H as <-. exact I.
  - destruct (py_int a); [| discriminate H]. destruct args; [discriminate H |]. injection H as <-. exact I.
Qed.
Lemma replace_commands_sound ere ts : forall ws, replace_commands ere ts = Ok ws ->
  List.length ws = List.length ts /\ forall o, In (WObj o) ws -> sound_object o.
Proof.
  induction ts as [| t ts IH]; intros ws H; [injection H as <-; split; [reflexivity | intros ? []] |]. cbn [replace_commands] in H.
  destruct t; cbn [bind] in H; try (destruct (mk_test ere args) as [| o] eqn:Et; cbn [bind] in H; [discriminate H |]);
    (destruct (replace_commands ere ts) as [| r]; cbn [bind] in H; [discriminate H |]); destruct (IH r eq_refl) as [Hl Hr]; injection H as <-;
    (split; [cbn; now rewrite Hl |]); intros o' [K | K]; try discriminate K; auto. injection K as <-. eapply mk_test_sound; eauto.
Qed.
Lemma parse_nonempty x ts : parse x = Ok ts -> ts <> [].
Proof.
  unfold parse. destruct (lex x) as [| l]; cbn [bind]; [discriminate |]. destruct (check_syntax (make_commands l)) as [| u] eqn:E; cbn [bind]; [discriminate |].
  intros H. injection H as <-. intros K. rewrite K in E. discriminate E.
Qed.

Section Conditions.
Variable e : zenv.
Hypothesis He : good_zenv e.

Definition fine (x : str) : Prop := neutral x /\ visible x.
Lemma fine_word x : is_name x -> fine x.
Proof.
  intros [Hn Hx]. split; [apply neutral_plain, safe_plain, word_safe, Hx |]. destruct x as [| c x]; [congruence |]. apply visible_safe.
  apply word_safe in Hx. cbn [forallb] in Hx. now apply andb_prop in Hx as [Hx _].
Qed.
Lemma fine_quoted a l : fine (join_quoted (a :: l) [SP]).
Proof. split; [apply neutral_quoted |]. apply (visible_join (quote a) (map quote l)), visible_quote. Qed.
Lemma fine_test o : sound_object o -> fine (zsh_test e o).
Proof.
  destruct He as (_ & _ & Hac). destruct o as [os vs ic any | os regex ic any | os | op n | ic n vs]; intros Hs; cbn [zsh_test].
  - apply fine_quoted.
  - apply fine_quoted.
  - apply fine_quoted.
  - unfold gen_positional_count. split; [| reflexivity]. apply neutral_app; [reflexivity |]. apply neutral_app.
    + destruct Hs as [<- | [<- | [<- | [<- | [<- | [<- | []]]]]]]; reflexivity.
    + apply neutral_app; [reflexivity |]. apply neutral_app; [apply z_plain | reflexivity].
  - destruct (fine_word _ Hac) as [N1 V1]. unfold zsh_positional_contains.
    assert (forall a b x, level ZPlain a = Some ZDouble -> level ZDouble b = Some ZPlain -> neutral x -> neutral (a ++ z_str n ++ b ++ x)) as G.
    { intros a b x Ha Hb Hx. unfold neutral. rewrite (level_app a _ _ _ Ha). assert (level ZDouble (z_str n) = Some ZDouble) as Hz.
      { unfold z_str. assert (forall d, level ZDouble (uint_str d) = Some ZDouble) as Hd by (induction d; cbn [uint_str level]; [reflexivity | exact IHd ..]).
        destruct (Z.to_int n); [apply Hd |]. cbn [level]. apply Hd. }
      rewrite (level_app _ _ _ _ Hz). rewrite (level_app b x _ _ Hb). exact Hx. }
    destruct ic; (split; [apply neutral_app; [exact N1 |]; apply G; [reflexivity | reflexivity |] | now apply visible_app]).
    + unfold neutral. rewrite level_lower. apply neutral_quoted.
    + apply neutral_quoted.
Qed.
Lemma fine_when ere w k : zsh_when ere e w = Ok k -> fine k.
Proof.
  unfold zsh_when, parse_when. destruct (parse w) as [[] | ts] eqn:Ep; cbn [bind]; try discriminate.
  destruct (replace_commands ere ts) as [| ws] eqn:Er; cbn [bind]; [discriminate |]. intros H. injection H as <-.
  destruct (replace_commands_sound _ _ _ Er) as [Hl Hs]. apply parse_nonempty in Ep.
  assert (Hf : forall t, In t ws -> fine (gen_token (zsh_test e) t)).
  { intros t Ht. destruct t; try (split; reflexivity). cbn [gen_token]. apply fine_test, Hs, Ht. }
  assert (fine (sp_join (map (gen_token (zsh_test e)) ws))) as [N1 V1].
  { split; [apply neutral_join; apply Forall_forall; intros x Hx; apply in_map_iff in Hx as (t & <- & Ht); now apply Hf |].
    destruct ws as [| t ws]; [destruct ts; [congruence | discriminate Hl] |]. apply visible_join. apply Hf. now left. }
  unfold gen_tokens. destruct (needs_braces ws); [| split; assumption]. split; [| reflexivity]. apply neutral_app; [reflexivity |]. apply neutral_app; [exact N1 | reflexivity].
Qed.
End Conditions.

(** ** The code with blanks in front of its lines *)
Definition blank_pad (pad : str) : Prop := forall c, In c pad -> c = SP.
Lemma pad_skip pad x : blank_pad pad -> skip_blanks (pad ++ x) = skip_blanks x.
Proof. induction pad as [| c pad IH]; intros H; [reflexivity |]. cbn [app skip_blanks]. rewrite (H c (or_introl eq_refl)). cbn. apply IH. intros d Hd. apply H. now right. Qed.
Lemma pad_read pad x : blank_pad pad -> zread ZPlain None (pad ++ x) = zread ZPlain None x.
Proof. induction pad as [| c pad IH]; intros H; [reflexivity |]. rewrite (H c (or_introl eq_refl)). cbn [app]. change (zread ZPlain None (SP :: ?y)) with (zread ZPlain None y). apply IH. intros d Hd. apply H. now right. Qed.

Definition array_part (pad : str) (specs : list str) : str :=
  match specs with [] => [] | _ => LF :: flat_map (fun t => pad ++ s "  " ++ t ++ [LF]) specs ++ pad end.
Definition added_part (pad : str) (added : list (str * str)) : str :=
  flat_map (fun x => pad ++ fst x ++ s " &&\" ++ [LF] ++ pad ++ s "  args+=(" ++ snd x ++ s ")" ++ [LF]) added.
Definition padded (pad : str) (stacking : bool) (specs : list str) (added : list (str * str)) : str :=
  pad ++ s "local -a args=(" ++ array_part pad specs ++ s ")" ++ [LF] ++ added_part pad added ++ pad ++ arguments_call stacking.
Lemma text_padded stacking args added :
  option_parsing_text stacking (ZCode (array_text args) added) = padded [] stacking (map zg_spec (without_when args)) added.
Proof.
  unfold option_parsing_text, padded. cbn [zc_array zc_conditional app]. f_equal. f_equal.
  - unfold array_text, array_part. destruct (without_when args) as [| a l]; [reflexivity |]. cbn [map]. f_equal. rewrite app_nil_r.
    change (zg_spec a :: map zg_spec l) with (map zg_spec (a :: l)). rewrite !flat_map_concat_map, map_map. reflexivity.
Qed.

(** The elements of the array *)
Lemma zread_blank x c r : memc c [SP; TAB; LF] = true -> forall m w l, zread m w x = Some l ->
  zread m w (x ++ c :: r) = option_map (app l) (zread ZPlain None r).
Proof.
  intros Hc. induction x as [| d x IH]; intros m w l H.
  - cbn [zread] in H. destruct m; try discriminate. cbn [app].
    replace (zread ZPlain w (c :: r)) with (zemit w (zread ZPlain None r)) by (apply memc_In in Hc; destruct Hc as [<- | [<- | [<- | []]]]; reflexivity).
    destruct w as [v |]; cbn [zemit option_map] in *; injection H as <-; destruct (zread ZPlain None r); reflexivity.
  - cbn [app zread] in *. destruct m.
    + destruct (N.eqb d SQ); [now apply IH |]. destruct (N.eqb d DQ); [now apply IH |]. destruct (N.eqb d BS); [now apply IH |].
      destruct (memc d [SP; TAB; LF]).
      * destruct (zread ZPlain None x) as [l' |] eqn:E; [| destruct w; discriminate H]. rewrite (IH _ _ _ E).
        destruct w as [v |]; cbn [zemit option_map] in *; injection H as <-; destruct (zread ZPlain None r); reflexivity.
      * destruct (zsh_special d); [discriminate |]. destruct (N.eqb d EQ && negb (is_some w)); [discriminate |]. now apply IH.
    + destruct (N.eqb d LF); now apply IH.
    + destruct (N.eqb d SQ); now apply IH.
    + destruct (N.eqb d DQ); [now apply IH |]. destruct (N.eqb d BS); [now apply IH |]. destruct (N.eqb d DOLLAR || N.eqb d BTICK); [discriminate |]. now apply IH.
    + destruct (N.eqb d LF); [now apply IH |]. destruct (memc d [DOLLAR; BTICK; DQ; BS]); now apply IH.
Qed.
Lemma expand_all_app a b : expand_all (a ++ b) = match expand_all a, expand_all b with Some x, Some y => Some (x ++ y) | _, _ => None end.
Proof.
  induction a as [| m a IH]; cbn [app expand_all]; [now destruct (expand_all b) |]. rewrite IH. destruct (expand_braces [] m); [| reflexivity].
  destruct (expand_all a); [| reflexivity]. destruct (expand_all b); [| reflexivity]. now rewrite app_assoc.
Qed.
Definition spec_words (text : str) (ws : list str) : Prop := zsh_array text = Some ws.
Lemma specs_array pad : blank_pad pad -> forall specs wss, Forall2 spec_words specs wss ->
  zsh_array (array_part pad specs) = Some (concat wss).
Proof.
  intros Hp specs wss F. unfold array_part. destruct specs as [| t0 specs0]; [inversion F; reflexivity |].
  set (specs := t0 :: specs0) in *. clearbody specs. unfold zsh_array. change (zread ZPlain None (LF :: ?x)) with (zread ZPlain None x).
  induction F as [| t ws specs wss Ht F IH].
  - cbn [flat_map app]. rewrite <- (app_nil_r pad), pad_read by exact Hp. reflexivity.
  - cbn [flat_map concat]. set (r := flat_map _ specs) in *.
    replace (((pad ++ s "  " ++ t ++ [LF]) ++ r) ++ pad) with (pad ++ SP :: SP :: t ++ LF :: (r ++ pad)) by (rewrite <- !app_assoc; cbn [app]; reflexivity).
    rewrite pad_read by exact Hp. change (zread ZPlain None (SP :: SP :: ?y)) with (zread ZPlain None y).
    unfold spec_words, zsh_array in Ht. destruct (zread ZPlain None t) as [ms |] eqn:Et; [| discriminate Ht].
    rewrite (zread_blank t LF (r ++ pad) eq_refl _ _ _ Et).
    destruct (zread ZPlain None (r ++ pad)) as [l |]; [| discriminate IH]. cbn [option_map]. rewrite expand_all_app, Ht, IH. reflexivity.
Qed.
Lemma text_behind_app p x : text_behind p (p ++ x) = Some x.
Proof. induction p as [| c p IH]; [reflexivity |]. cbn [app text_behind]. now rewrite N.eqb_refl. Qed.
Lemma text_before_app x p : text_before p (x ++ p) = Some x.
Proof. unfold text_before. rewrite rev_app_distr, text_behind_app. cbn. now rewrite rev_involutive. Qed.
Lemma parenthesis_array x ws r : zsh_array x = Some ws -> to_parenthesis ZPlain (x ++ RPAR :: r) = Some (x, r).
Proof. unfold zsh_array. destruct (zread ZPlain None x) as [l |] eqn:E; [| discriminate]. intros _. eapply to_parenthesis_end; eauto. Qed.

Lemma call_visible stacking : visible (arguments_call stacking).
Proof. destruct stacking; reflexivity. Qed.
Lemma runs_padded holds pad stacking : blank_pad pad -> forall added wss ws,
  Forall2 (fun x words => fine (fst x) /\ spec_words (snd x) words) added wss ->
  runs holds ws (added_part pad added ++ pad ++ arguments_call stacking)
    (ws ++ concat (map (fun x => if holds (fst (fst x)) then snd x else []) (combine added wss))) stacking.
Proof.
  intros Hp added wss ws F. revert ws. induction F as [| [k text] words added wss [[Hn Hv] Hs] F IH]; intros ws.
  - cbn [added_part flat_map app combine map concat]. rewrite app_nil_r. apply runs_call. rewrite pad_skip by exact Hp.
    rewrite <- (app_nil_r (arguments_call stacking)). now rewrite visible_skip by apply call_visible.
  - cbn [combine map concat fst snd]. set (r := added_part pad added ++ pad ++ arguments_call stacking) in *.
    replace (added_part pad ((k, text) :: added) ++ pad ++ arguments_call stacking)
      with (pad ++ k ++ s " &&\" ++ [LF] ++ pad ++ s "  args+=(" ++ text ++ s ")" ++ [LF] ++ r)
      by (unfold r, added_part; cbn [flat_map fst snd]; rewrite <- !app_assoc; reflexivity).
    cbn [fst snd] in Hn, Hv, Hs.
    eapply (runs_add holds ws _ (k ++ s " &&") (pad ++ s "  args+=(" ++ text ++ s ")" ++ [LF] ++ r) k (text ++ s ")" ++ [LF] ++ r) text r words).
    + rewrite pad_skip by exact Hp. rewrite visible_skip by exact Hv.
      replace (k ++ s " &&\" ++ [LF] ++ pad ++ s "  args+=(" ++ text ++ s ")" ++ [LF] ++ r)
        with ((k ++ s " &&") ++ BS :: LF :: (pad ++ s "  args+=(" ++ text ++ s ")" ++ [LF] ++ r)) by (rewrite <- !app_assoc; reflexivity).
      apply to_joined_end. exact (neutral_app k (s " &&") Hn eq_refl).
    + apply text_before_app.
    + rewrite pad_skip by exact Hp. change (skip_blanks (s "  args+=(" ++ ?y)) with (s "args+=(" ++ y). apply text_behind_app.
    + change (s ")" ++ [LF] ++ r) with (RPAR :: LF :: r). eapply parenthesis_array. exact Hs.
    + exact Hs.
    + destruct (holds k); [rewrite app_assoc |]; apply IH.
Qed.
Lemma runs_options_padded holds pad stacking specs wss0 added wss : blank_pad pad -> Forall2 spec_words specs wss0 ->
  Forall2 (fun x words => fine (fst x) /\ spec_words (snd x) words) added wss ->
  runs_options holds (padded pad stacking specs added)
    (concat wss0 ++ concat (map (fun x => if holds (fst (fst x)) then snd x else []) (combine added wss))) stacking.
Proof.
  intros Hp F0 F. pose proof (specs_array pad Hp _ _ F0) as Ha. unfold padded.
  exists (array_part pad specs ++ s ")" ++ [LF] ++ added_part pad added ++ pad ++ arguments_call stacking), (array_part pad specs),
    (added_part pad added ++ pad ++ arguments_call stacking), (concat wss0).
  split; [| split; [| split; [exact Ha |]]].
  - rewrite pad_skip by exact Hp. change (skip_blanks (s "local -a args=(" ++ ?y)) with (s "local -a args=(" ++ y). apply text_behind_app.
  - change (s ")" ++ [LF] ++ ?y) with (RPAR :: LF :: y). eapply parenthesis_array. exact Ha.
  - now apply runs_padded.
Qed.

(** ** Indentation *)
Definition lines (stacking : bool) (specs : list str) (added : list (str * str)) : list str :=
  (match specs with [] => [s "local -a args=()"] | _ => s "local -a args=(" :: map (fun t => s "  " ++ t) specs ++ [s ")"] end)
  ++ flat_map (fun x => [fst x ++ s " &&\"; s "  args+=(" ++ snd x ++ s ")"]) added ++ [arguments_call stacking].
Lemma join_cons (x y : str) l : join [LF] (x :: y :: l) = x ++ LF :: join [LF] (y :: l).
Proof. reflexivity. Qed.
Lemma join_snoc_lf l x : join [LF] (l ++ [x]) = flat_map (fun t => t ++ [LF]) l ++ x.
Proof.
  induction l as [| a l IH]; [reflexivity |]. cbn [flat_map]. rewrite <- !app_assoc, <- IH. destruct l as [| b l]; reflexivity.
Qed.
Lemma flat_map_map (A B C : Type) (f : B -> list C) (g : A -> B) l : flat_map f (map g l) = flat_map (fun x => f (g x)) l.
Proof. rewrite !flat_map_concat_map, map_map. reflexivity. Qed.
Lemma flat_map_flat (A B C : Type) (f : B -> list C) (g : A -> list B) l : flat_map f (flat_map g l) = flat_map (fun x => flat_map f (g x)) l.
Proof. induction l as [| a l IH]; [reflexivity |]. cbn [flat_map]. now rewrite flat_map_app, IH. Qed.
Lemma padded_lines pad stacking specs added : padded pad stacking specs added = join [LF] (map (app pad) (lines stacking specs added)).
Proof.
  unfold lines. rewrite app_assoc, map_app. cbn [map]. rewrite join_snoc_lf. unfold padded.
  set (first := match specs with [] => _ | _ => _ end).
  rewrite map_app, flat_map_app, !flat_map_map, flat_map_flat.
  replace (flat_map (fun x : str => (pad ++ x) ++ [LF]) first) with (pad ++ s "local -a args=(" ++ array_part pad specs ++ s ")" ++ [LF]).
  2: { unfold first, array_part. destruct specs as [| t specs]; [cbn [flat_map]; rewrite app_nil_r, <- app_assoc; reflexivity |].
    set (sp := t :: specs). clearbody sp. cbn [flat_map]. rewrite flat_map_app, flat_map_map. cbn [flat_map]. rewrite app_nil_r.
    rewrite <- !app_assoc. do 2 f_equal. cbn [app]. f_equal. rewrite <- !app_assoc. f_equal.
    apply flat_map_ext. intros x. rewrite <- !app_assoc. reflexivity. }
  rewrite <- !app_assoc. do 5 f_equal. unfold added_part. f_equal. apply flat_map_ext. intros [k t]. cbn [fst snd flat_map]. rewrite app_nil_r, <- !app_assoc. reflexivity.
Qed.
Lemma split_join_lines l : l <> [] -> (forall x, In x l -> ~ In LF x) -> split_c LF (join [LF] l) = l.
Proof. intros Hn H. apply split_join_c; [exact Hn |]. exact H. Qed.
Definition shown (x : str) : Prop := forallb is_space x = false.
Lemma indent_padded stacking specs added :
  (forall t, In t specs -> ~ In LF t /\ shown t) -> (forall k t, In (k, t) added -> ~ In LF k /\ ~ In LF t) ->
  indent (padded [] stacking specs added) 2 = padded (s "  ") stacking specs added.
Proof.
  intros Hs Ha. rewrite !padded_lines. replace (map (app []) (lines stacking specs added)) with (lines stacking specs added) by (symmetry; apply map_id).
  assert (Hl : forall x, In x (lines stacking specs added) -> ~ In LF x /\ shown x).
  { unfold lines. intros x Hx. apply in_app_or in Hx as [Hx | Hx].
    - destruct specs as [| t0 specs0].
      + destruct Hx as [<- | []]. split; [| reflexivity]. intros K. vm_compute in K. repeat destruct K as [K | K]; discriminate || exact K.
      + set (specs := t0 :: specs0) in *. clearbody specs. destruct Hx as [<- | Hx].
        { split; [| reflexivity]. intros K. vm_compute in K. repeat destruct K as [K | K]; discriminate || exact K. }
        apply in_app_or in Hx as [Hx | Hx].
        * apply in_map_iff in Hx as (t & <- & Ht). destruct (Hs t Ht) as [H1 H2]. split.
          -- intros K. apply in_app_or in K as [K | K]; [| now apply H1]. vm_compute in K. repeat destruct K as [K | K]; discriminate || exact K.
          -- unfold shown. change (s "  ") with [SP; SP]. cbn [app forallb]. rewrite H2. reflexivity.
        * destruct Hx as [<- | []]. split; [| reflexivity]. intros K. vm_compute in K. repeat destruct K as [K | K]; discriminate || exact K.
    - apply in_app_or in Hx as [Hx | Hx].
      + apply in_flat_map in Hx as ([k t] & Hi & Hx). destruct (Ha k t Hi) as [H1 H2]. cbn [fst snd] in Hx. destruct Hx as [<- | [<- | []]].
        * split; [| unfold shown; rewrite forallb_app; apply andb_false_r].
          intros K. apply in_app_or in K as [K | K]; [now apply H1 |]. vm_compute in K. repeat destruct K as [K | K]; discriminate || exact K.
        * split; [| reflexivity]. intros K. apply in_app_or in K as [K | K]; [vm_compute in K; repeat destruct K as [K | K]; discriminate || exact K |].
          apply in_app_or in K as [K | K]; [now apply H2 |]. vm_compute in K. repeat destruct K as [K | K]; discriminate || exact K.
      + destruct Hx as [<- | []]. split; [| destruct stacking; reflexivity]. intros K. destruct stacking; vm_compute in K; repeat destruct K as [K | K]; discriminate || exact K. }
  rewrite indent_lines_eq. rewrite split_join_lines.
  - f_equal. apply map_ext_in. intros x Hx. destruct (Hl x Hx) as [_ H]. unfold indent_line. unfold shown in H. rewrite H. reflexivity.
  - intros K. unfold lines in K. apply app_eq_nil in K as [_ K]. apply app_eq_nil in K as [_ K]. discriminate.
  - intros x Hx. now apply Hl.
Qed.

(** ** The whole function *)
Lemma split_c_cut c a b : split_c c (a ++ c :: b) = split_c c a ++ split_c c b.
Proof.
  induction a as [| d a IH].
  - cbn [app split_c]. pose proof (split_c_nonnil c b) as Hn. destruct (split_c c b); [congruence |]. now rewrite N.eqb_refl.
  - cbn [app split_c]. rewrite IH. pose proof (split_c_nonnil c a) as Hn. destruct (split_c c a) as [| p l]; [congruence |]. cbn [app].
    destruct (N.eqb d c); reflexivity.
Qed.
Lemma indent_cut a b n : indent (a ++ LF :: b) n = indent a n ++ LF :: indent b n.
Proof.
  rewrite !indent_lines_eq, split_c_cut, map_app. pose proof (split_c_nonnil LF a) as Ha. pose proof (split_c_nonnil LF b) as Hb.
  destruct (map (indent_line n) (split_c LF b)) as [| q m] eqn:Eb; [apply map_eq_nil in Eb; congruence |].
  destruct (map (indent_line n) (split_c LF a)) as [| p l] eqn:Ea; [apply map_eq_nil in Ea; congruence |]. clear.
  revert p. induction l as [| p' l IH]; intros p; [reflexivity |]. cbn [app]. rewrite !join_cons. specialize (IH p'). cbn [app] in IH. rewrite IH. now rewrite <- app_assoc.
Qed.
Lemma function_ends name others stacking k code : indent (option_parsing_text stacking k) 2 = code ->
  function_ends_with name (function_code name others stacking (Some k)) code.
Proof.
  intros <-. unfold function_code, get_code. rewrite filter_app. cbn [filter].
  assert (Hne : exists c x, option_parsing_text stacking k = c :: x) by (eexists _, _; reflexivity). destruct Hne as (c & x & Hne). set (text := option_parsing_text stacking k) in *. clearbody text. rewrite Hne at 1.
  set (l := filter _ others). clearbody l. unfold function_ends_with. clear.
  assert (exists front, join [LF; LF] (l ++ [text]) = front ++ text /\ (front = [] \/ exists f, front = f ++ [LF; LF])) as (front & E & Hf).
  { induction l as [| a l (front & E & Hf)]; [exists []; auto |]. destruct l as [| b l].
    - exists (a ++ [LF; LF]). split; [cbn [app join]; now rewrite <- app_assoc |]. right. now exists a.
    - exists (a ++ [LF; LF] ++ front). split.
      + change (join [LF; LF] ((a :: b :: l) ++ [text])) with (a ++ [LF; LF] ++ join [LF; LF] ((b :: l) ++ [text])). rewrite E. now rewrite <- !app_assoc.
      + right. destruct Hf as [-> | (f & ->)]; [exists a; now rewrite app_nil_r | exists (a ++ [LF; LF] ++ f); now rewrite <- !app_assoc]. }
  rewrite E. destruct Hf as [-> | (f & ->)].
  - exists []. split; [reflexivity | now left].
  - exists (indent f 2 ++ [LF; LF]). split; [| right; eauto]. rewrite <- !app_assoc. cbn [app]. rewrite indent_cut.
    change (LF :: text) with ([] ++ LF :: text). rewrite indent_cut. change (indent [] 2) with (@nil N). rewrite <- app_assoc. reflexivity.
Qed.
