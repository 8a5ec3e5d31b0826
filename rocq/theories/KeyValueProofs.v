(** * Proofs: what the code for keys and values does. *)
From Verif Require Import Base PyStr Algo Shell SpecShell ShellProofs Cli WhenTests StrUtils ZshUtils SpecZsh ZshReading ZshSpecs SpecChoices ChoicesZsh
  KeyValue SpecKeyValue.
Open Scope list_scope.

(** ** Lines are read in one way only *)
Definition stops (d : dialect) : Prop := forall w ws x, words d w = Some ws -> words d (w ++ SP :: AMP :: x) = None.
Lemma sh_read_stops e w x : forall m acc ws, sh_read e m acc w = Some ws -> sh_read e m acc (w ++ SP :: AMP :: x) = None.
Proof.
  induction w as [| c w IH]; intros m acc ws H.
  - cbn [sh_read] in H. destruct m; try discriminate. cbn [app]. cbn. destruct acc; reflexivity.
  - cbn [app sh_read] in *. destruct m;
      repeat match goal with |- context [if ?b then _ else _] => destruct b end; try discriminate; try (now apply IH in H).
    destruct acc as [v |]; cbn [emit] in *; [| now apply IH in H].
    destruct (sh_read e Unquoted None w) as [r |] eqn:E; [| discriminate]. now rewrite (IH _ _ _ E).
Qed.
Lemma fish_read_stops w x : forall m acc ws, fish_read m acc w = Some ws -> fish_read m acc (w ++ SP :: AMP :: x) = None.
Proof.
  induction w as [| c w IH]; intros m acc ws H.
  - cbn [fish_read] in H. destruct m; try discriminate. cbn [app]. cbn. destruct acc; reflexivity.
  - cbn [app fish_read] in *. destruct m;
      repeat match goal with |- context [if ?b then _ else _] => destruct b end; try discriminate; try (now apply IH in H).
    destruct acc as [v |]; cbn [emit] in *; [| now apply IH in H].
    destruct (fish_read FUnquoted None w) as [r |] eqn:E; [| discriminate]. now rewrite (IH _ _ _ E).
Qed.
Lemma zread_stops w x : forall m acc ws, zread m acc w = Some ws -> zread m acc (w ++ SP :: AMP :: x) = None.
Proof.
  induction w as [| c w IH]; intros m acc ws H.
  - cbn [zread] in H. destruct m; try discriminate. cbn [app]. cbn. destruct acc; reflexivity.
  - cbn [app zread] in *. destruct m;
      repeat match goal with |- context [if ?b then _ else _] => destruct b end; try discriminate; try (now apply IH in H).
    destruct acc as [v |]; cbn [zemit] in *; [| now apply IH in H].
    destruct (zread ZPlain None w) as [r |] eqn:E; [| discriminate]. now rewrite (IH _ _ _ E).
Qed.
Lemma bash_stops : stops bash.
Proof. intros w ws x H. exact (sh_read_stops false w x Unquoted None ws H). Qed.
Lemma fish_stops : stops fish.
Proof. intros w ws x H. exact (fish_read_stops w x FUnquoted None ws H). Qed.
Lemma zsh_stops : stops zsh.
Proof.
  intros w ws x H. cbn [words zsh] in *. unfold zsh_array in *. destruct (zread ZPlain None w) as [r |] eqn:E; [| discriminate].
  now rewrite (zread_stops w x _ _ _ E).
Qed.

Lemma condition_unique d w w' k k' x x' : stops d -> words d w = Some [k] -> words d w' = Some [k'] ->
  w ++ s " && " ++ x = w' ++ s " && " ++ x' -> w = w' /\ x = x'.
Proof.
  intros S. assert (forall w w' k k' x x' y, words d w = Some [k] -> words d w' = Some [k'] -> w' = w ++ y -> y <> [] ->
    s " && " ++ x = y ++ s " && " ++ x' -> False) as K.
  { clear - S. intros w w' k k' x x' y H H' -> Hy E. destruct y as [| a [| b y]]; [congruence | |].
    - change (s " && ") with [SP; AMP; AMP; SP] in E. discriminate.
    - change (s " && ") with [SP; AMP; AMP; SP] in E. injection E as <- <- _. rewrite (S w [k] y H) in H'. discriminate. }
  intros H H' E. destruct (Nat.lt_trichotomy (length w) (length w')) as [L | [L | L]].
  - apply app_eq_app in E as (y & [[-> E] | [-> E]]); [rewrite app_length in L; lia |]. destruct y as [| a y]; [rewrite app_nil_r in L; lia |].
    destruct (K w (w ++ a :: y) k k' x x' (a :: y)); auto; discriminate.
  - assert (w = w') as ->.
    { apply (f_equal (firstn (length w))) in E. rewrite firstn_app, Nat.sub_diag, firstn_all, firstn_O, app_nil_r in E. now rewrite L, firstn_app, Nat.sub_diag, firstn_all, firstn_O, app_nil_r in E. }
    split; [reflexivity |]. apply app_inv_head in E. now apply app_inv_head in E.
  - apply app_eq_app in E as (y & [[-> E] | [-> E]]); [| rewrite app_length in L; lia]. destruct y as [| a y]; [rewrite app_nil_r in L; lia |].
    destruct (K w' (w' ++ a :: y) k' k x' x (a :: y)); auto; discriminate.
Qed.
Lemma adds_unique d line k ws k' ws' : stops d -> hd 0%N (opening d ++ [DOLLAR]) <> DOLLAR -> opening d <> [] ->
  adds d line k ws -> adds d line k' ws' -> k = k' /\ ws = ws'.
Proof.
  intros S Ho Hn H. destruct H as [body ws Hb | w k body ws Hw Hb]; intros H'; inversion H' as [body' ws2 Hb' E | w' k2 body' ws2 Hw' Hb' E]; subst.
  - apply app_inv_head, app_inv_tail in E. split; congruence.
  - destruct (opening d) as [| c o]; [congruence |]. cbn in Ho. apply (f_equal (hd 0%N)) in E. vm_compute in E. congruence.
  - destruct (opening d) as [| c o]; [congruence |]. cbn in Ho. apply (f_equal (hd 0%N)) in E. vm_compute in E. congruence.
  - change (w' ++ s " && " ++ (opening d ++ body' ++ closing d) = w ++ s " && " ++ (opening d ++ body ++ closing d)) in E. destruct (condition_unique d w' w k2 k _ _ S Hw' Hw E) as [-> E2].
    apply app_inv_head, app_inv_tail in E2. subst. split; congruence.
Qed.

(** ** Definitions *)
Lemma definition_key e : d_key (get_definition e) = own_key e /\ d_repeatable (get_definition e) = again e /\
  d_description (get_definition e) = e_description e /\ d_completer (get_definition e) = e_completer e /\ d_excludes (get_definition e) = e_excludes e.
Proof.
  unfold get_definition, own_key, again. destruct e as [key de c ex]. cbn [e_key e_description e_completer e_excludes].
  destruct key as [| a key]; cbn [starts_with]; [auto |]. rewrite N.eqb_sym. destruct (N.eqb a STAR); cbn; auto.
Qed.
Lemma definition_excludes e : all_excludes (get_definition e) = excluded e.
Proof. unfold all_excludes, excluded. destruct (definition_key e) as (-> & -> & _ & _ & ->). reflexivity. Qed.
Lemma definition_func e : value_func (d_completer (get_definition e)) = value_command e.
Proof. destruct (definition_key e) as (_ & _ & _ & -> & _). reflexivity. Qed.

(** ** Bash *)
Lemma joined_two a b : join_quoted [a; b] [SP] = quote a ++ SP :: quote b.
Proof. reflexivity. Qed.
Lemma joined_three a b c : join_quoted [a; b; c] [SP] = quote a ++ SP :: quote b ++ SP :: quote c.
Proof. reflexivity. Qed.

Lemma quoted_words x xs : xs <> [] -> quote x ++ SP :: join_quoted xs [SP] = join_quoted (x :: xs) [SP].
Proof. destruct xs; [congruence | reflexivity]. Qed.
Lemma bash_line_if f key xs : adds bash (condition (Some f) (quote key) ++ s "a+=(" ++ join_quoted xs [SP] ++ s ")") (Some key) xs.
Proof.
  unfold condition. rewrite <- !app_assoc.
  apply (adds_if bash (quote key) key (join_quoted xs [SP]) xs); [apply posix_quote | apply posix_join_quoted].
Qed.
Lemma bash_line_always word xs : adds bash (condition None word ++ s "a+=(" ++ join_quoted xs [SP] ++ s ")") None xs.
Proof. apply (adds_always bash (join_quoted xs [SP]) xs). apply posix_join_quoted. Qed.

Section Fill.
Variable d : dialect.
Variable test : str -> str -> bool.
Variable key : entry -> str.
Variable told : entry -> list str.
Variable line : option str -> entry -> str.
Lemma fills_all (func : option str) l :
  (forall e, In e l -> match func with Some f => adds d (line func e) (Some (key e)) (told e) | None => adds d (line func e) None (told e) end) ->
  fills d (option_map test func) (map (line func) l) (flat_map told (filter (applies test func key) l)).
Proof.
  induction l as [| e l IH]; intros H; [constructor |]. specialize (IH (fun e' He => H e' (or_intror He))). specialize (H e (or_introl eq_refl)).
  cbn [map filter]. unfold applies at 1. destruct func as [f |].
  - pose proof (fills_if d _ _ _ _ (test f) _ _ eq_refl H IH) as K. destruct (test f (key e)); exact K.
  - exact (fills_always d _ _ _ _ _ H IH).
Qed.
(** a whole code *)
Lemma calls_all (func : option str) l x ws set_c :
  (forall e, In e l -> match func with Some f => adds d (line func e) (Some (key e)) (told e) | None => adds d (line func e) None (told e) end) ->
  command d x ws -> (forall f, func = Some f -> words d (set_c f) = Some (assigns d f)) ->
  calls d test ((new_array d :: match func with Some f => [set_c f] | None => [] end) ++ map (line func) l ++ [x ++ all_elements d])
    (ws ++ flat_map told (filter (applies test func key) l)).
Proof.
  intros H Hc Hs. pose proof (fills_all func l H) as F. destruct func as [f |].
  - apply (calls_with d test (set_c f) f); auto.
  - apply (calls_plain d test); auto.
Qed.
End Fill.

Lemma safe_word x : x <> [] -> forallb is_safe x = true -> quote x = x.
Proof. intros Hn H. destruct (quote_cases x) as [[_ [_ E]] | [[K _] | [[K _] | [K _]]]]; [exact E | ..]; unfold needs_quote in K; destruct x; try congruence; rewrite H in K; discriminate. Qed.
Lemma bash_set f : words bash (s "local c=" ++ quote f) = Some (assigns bash f).
Proof.
  cbn [words bash assigns]. unfold posix_words.
  change (sh_read false Unquoted None (s "local c=" ++ quote f)) with (emit (Some (s "local")) (sh_read false Unquoted (Some (s "c=")) (quote f))).
  rewrite <- (app_nil_r (quote f)), sh_read_quote by discriminate. reflexivity.
Qed.

Definition name_ok (helper : str) : Prop := helper <> [] /\ forallb is_safe helper = true /\ hd 0%N helper <> EQ.
Theorem bash_list_right test helper ps vs func l : name_ok helper ->
  calls bash test (bash_list_code helper ps vs func l)
    ([helper; ps; vs] ++ flat_map (fun e => [own_key e; value_command e; join [SP] (excluded e)]) (filter (applies test func own_key) l)).
Proof.
  intros (Hn & Hs & _). unfold bash_list_code, posix_head.
  replace (helper ++ s " " ++ quote ps ++ s " " ++ quote vs ++ s " ""${a[@]}""") with (join_quoted [helper; ps; vs] [SP] ++ all_elements bash)
    by (rewrite joined_three, (safe_word helper Hn Hs); rewrite <- !app_assoc; cbn [app]; rewrite <- !app_assoc; reflexivity).
  apply (calls_all bash test own_key _ (fun func e => bash_list_line func (get_definition e)) func l _ _ (fun f => s "local c=" ++ quote f)).
  - intros e _. unfold bash_list_line. rewrite definition_excludes, definition_func. destruct (definition_key e) as (-> & _).
    assert (forall r, s "a+=(" ++ quote (own_key e) ++ s " " ++ quote (value_command e) ++ s " " ++ quote (join [SP] (excluded e)) ++ r =
      s "a+=(" ++ join_quoted [own_key e; value_command e; join [SP] (excluded e)] [SP] ++ r) as E
      by (intros r; rewrite joined_three; rewrite <- !app_assoc; cbn [app]; rewrite <- !app_assoc; reflexivity).
    rewrite E. destruct func as [f |]; [apply bash_line_if | apply bash_line_always].
  - apply posix_join_quoted.
  - intros f _. apply bash_set.
Qed.
Theorem bash_pair_right test helper vs func l : name_ok helper ->
  calls bash test (bash_pair_code helper vs func l)
    ([helper; vs] ++ flat_map (fun e => [e_key e; value_command e]) (filter (applies test func e_key) l)).
Proof.
  intros (Hn & Hs & _). unfold bash_pair_code, posix_head.
  replace (helper ++ s " " ++ quote vs ++ s " ""${a[@]}""") with (join_quoted [helper; vs] [SP] ++ all_elements bash)
    by (rewrite joined_two, (safe_word helper Hn Hs); rewrite <- !app_assoc; reflexivity).
  apply (calls_all bash test e_key _ bash_pair_line func l _ _ (fun f => s "local c=" ++ quote f)).
  - intros e _. unfold bash_pair_line.
    replace (s "a+=(" ++ quote (e_key e) ++ s " " ++ quote (value_func (e_completer e)) ++ s ")") with
      (s "a+=(" ++ join_quoted [e_key e; value_command e] [SP] ++ s ")") by (rewrite joined_two; rewrite <- !app_assoc; reflexivity).
    destruct func as [f |]; [apply bash_line_if | apply bash_line_always].
  - apply posix_join_quoted.
  - intros f _. apply bash_set.
Qed.

(** ** fish *)
Lemma fish_quoted xs : (forall x, In x xs -> ~ In BS x /\ ~ In BTICK x) -> fish_words (join_quoted xs [SP]) = Some xs.
Proof. apply fish_join_quoted. Qed.
Lemma joined_four a b c e : join_quoted [a; b; c; e] [SP] = quote a ++ SP :: quote b ++ SP :: quote c ++ SP :: quote e.
Proof. reflexivity. Qed.
Definition fish_texts (func : option str) (e : entry) : list str := [e_key e; own_key e; described e; value_command e; or_empty func] ++ e_excludes e.
Definition fish_clean (xs : list str) : Prop := forall x, In x xs -> ~ In BS x /\ ~ In BTICK x.
Lemma fish_set f : fish_clean [f] -> words fish (s "set -l c " ++ quote f) = Some (assigns fish f).
Proof.
  intros H. cbn [words fish assigns]. change (s "set -l c " ++ quote f) with (join_quoted [s "set"; s "-l"; s "c"; f] [SP]).
  apply fish_quoted. intros x [<- | [<- | [<- | [<- | []]]]]; [split; apply memc_false; reflexivity .. |]. apply H. now left.
Qed.
Lemma fish_line w k xs : fish_clean (k :: xs) -> w = quote k ->
  adds fish (s "$c " ++ w ++ s " && " ++ s "set -a a " ++ join_quoted xs [SP]) (Some k) xs.
Proof.
  intros H ->. rewrite <- (app_nil_r (join_quoted xs [SP])).
  apply (adds_if fish (quote k) k (join_quoted xs [SP]) xs).
  - cbn [words fish]. change (quote k) with (join_quoted [k] [SP]). apply fish_quoted. intros x [<- | []]. apply H. now left.
  - apply fish_quoted. intros x Hx. apply H. now right.
Qed.
Lemma fish_line_always xs : fish_clean xs -> adds fish (s "set -a a " ++ join_quoted xs [SP]) None xs.
Proof.
  intros H. rewrite <- (app_nil_r (join_quoted xs [SP])). apply (adds_always fish (join_quoted xs [SP]) xs). now apply fish_quoted.
Qed.
Lemma excluded_clean func e : fish_clean (fish_texts func e) -> ~ In BS (join [SP] (excluded e)) /\ ~ In BTICK (join [SP] (excluded e)).
Proof.
  intros H. assert (forall x, In x (excluded e) -> ~ In BS x /\ ~ In BTICK x) as K.
  { intros x Hx. apply H. unfold excluded in Hx. apply in_app_iff in Hx as [Hx | Hx]; [| unfold fish_texts; apply in_app_iff; now right].
    destruct (again e); [destruct Hx |]. destruct Hx as [<- | []]. cbn. tauto. }
  split; intros Hi; apply join_chars in Hi as [Hi | (x & Hx & Hi)]; try (vm_compute in Hi; destruct Hi as [Hi | []]; discriminate); destruct (K x Hx); contradiction.
Qed.
Theorem fish_list_right test helper ps vs func l : name_ok helper -> fish_clean [helper; ps; vs; or_empty func] ->
  (forall e, In e l -> fish_clean (fish_texts func e)) ->
  calls fish test (fish_list_code helper ps vs func l)
    ([helper; ps; vs] ++ flat_map (fun e => [own_key e; described e; value_command e; join [SP] (excluded e)]) (filter (applies test func own_key) l)).
Proof.
  intros (Hn & Hs & _) Hc Hl. unfold fish_list_code, fish_head.
  replace (helper ++ s " " ++ quote ps ++ s " " ++ quote vs ++ s " $a") with (join_quoted [helper; ps; vs] [SP] ++ all_elements fish)
    by (rewrite joined_three, (safe_word helper Hn Hs); rewrite <- !app_assoc; cbn [app]; rewrite <- !app_assoc; reflexivity).
  apply (calls_all fish test own_key _ (fun func e => fish_list_line func (get_definition e)) func l _ _ (fun f => s "set -l c " ++ quote f)).
  - intros e He. unfold fish_list_line. rewrite definition_excludes, definition_func. destruct (definition_key e) as (-> & _ & -> & _).
    change (or_empty (e_description e)) with (described e).
    assert (fish_clean [own_key e; own_key e; described e; value_command e; join [SP] (excluded e)]) as K.
    { pose proof (excluded_clean func e (Hl e He)) as K0. specialize (Hl e He). intros x Hx. cbn [In] in Hx.
      destruct Hx as [<- | [<- | [<- | [<- | [<- | []]]]]]; [apply Hl; cbn; tauto .. | exact K0]. }
    destruct func as [f |]; unfold condition; rewrite <- ?app_assoc; [now apply fish_line |]. apply fish_line_always. intros x Hx. apply K. now right.
  - cbn [command fish]. apply fish_quoted. intros x Hx. apply Hc. cbn in *; tauto.
  - intros f ->. apply fish_set. intros x [<- | []]. apply Hc. cbn. tauto.
Qed.
(** What the code for pairs does: the condition is asked about its own name. *)
Theorem fish_pair_right test helper vs func l : name_ok helper -> fish_clean [helper; vs; or_empty func] ->
  (forall e, In e l -> fish_clean (fish_texts func e)) ->
  calls fish test (fish_pair_code helper vs func l)
    ([helper; vs] ++ flat_map (fun e => [e_key e; described e; value_command e]) (filter (applies test func (fun _ => or_empty func)) l)).
Proof.
  intros (Hn & Hs & _) Hc Hl. unfold fish_pair_code, fish_head.
  replace (helper ++ s " " ++ quote vs ++ s " $a") with (join_quoted [helper; vs] [SP] ++ all_elements fish)
    by (rewrite joined_two, (safe_word helper Hn Hs); rewrite <- !app_assoc; reflexivity).
  apply (calls_all fish test (fun _ => or_empty func) _ fish_pair_line func l _ _ (fun f => s "set -l c " ++ quote f)).
  - intros e He. unfold fish_pair_line. specialize (Hl e He).
    change (or_empty (e_description e)) with (described e). change (value_func (e_completer e)) with (value_command e).
    assert (fish_clean [or_empty func; e_key e; described e; value_command e]) as K.
    { intros x Hx. cbn [In] in Hx. destruct Hx as [<- | [<- | [<- | [<- | []]]]]; apply Hl; cbn; tauto. }
    destruct func as [f |]; unfold condition; rewrite <- ?app_assoc; [now apply fish_line |]. apply fish_line_always. intros x Hx. apply K. now right.
  - cbn [command fish]. apply fish_quoted. intros x Hx. apply Hc. cbn in *; tauto.
  - intros f ->. apply fish_set. intros x [<- | []]. apply Hc. cbn. tauto.
Qed.

(** ** zsh *)
Lemma harmless_safe x : harmless x -> forallb is_safe x = true.
Proof.
  intros [_ H]. rewrite forallb_forall in *. intros c Hc. specialize (H c Hc). unfold is_safe. apply orb_true_iff in H as [H | H]; [now rewrite H |].
  apply memc_In in H. cbn in H. destruct H as [<- | [<- | [<- | [<- | []]]]]; reflexivity.
Qed.
Lemma harmless_free x c : harmless x -> is_word c || memc c [PLUS; DOT; SLASH; DASH] = false -> ~ In c x.
Proof. intros [_ H] E K. rewrite forallb_forall in H. specialize (H c K). congruence. Qed.
Lemma harmless_hd x c : harmless x -> is_word c || memc c [PLUS; DOT; SLASH; DASH] = false -> hd 0%N x <> c.
Proof. intros H E. pose proof (harmless_free x c H E) as K. destruct H as [Hn _]. destruct x as [| d x]; [congruence |]. cbn. intros ->. apply K. now left. Qed.
Lemma harmless_word x : harmless x -> zword x x.
Proof.
  intros H. assert (quote x = x) as E by (apply safe_word; [apply H | now apply harmless_safe]).
  rewrite <- E at 1. apply zword_quote. now apply harmless_hd.
Qed.
Lemma zword_array t v : zword t v -> zsh_array t = Some [v].
Proof. intros H. apply zwords_array. rewrite <- (app_nil_r t). apply (zw_cons [] t v []); [intros c [] | exact H | exact I | constructor; intros c []]. Qed.
Lemma zword_quoted x : needs_quote x = true -> zword (quote x) x.
Proof. intros H rest. now apply reads_first_quote. Qed.
Lemma reads_harmless x : harmless x -> reads x x.
Proof.
  intros H. assert (quote x = x) as E by (apply safe_word; [apply H | now apply harmless_safe]). rewrite <- E at 1. apply reads_quote.
Qed.
Lemma needs_first c x : is_safe c = false -> needs_quote (c :: x) = true.
Proof. intros H. unfold needs_quote. cbn [forallb]. now rewrite H. Qed.

(** the text of the argument *)
Definition argument_text (excludes : list str) (many : bool) (key : str) (desc : option str) (c : value_completer) : str :=
  (match excludes with [] => [] | l => s "(" ++ join [SP] l ++ s ")" end) ++ (if many then s "*" else []) ++ key
  ++ (match desc with Some ((_ :: _) as x) => s "[" ++ escape_square_brackets x ++ s "]" | _ => [] end)
  ++ match c with NoValue => [] | AnyValue => s ":::" | Completes _ action => s ":::" ++ action end.
Lemma rest_reads desc c : reads (zsh_rest desc c)
  ((match desc with Some ((_ :: _) as x) => s "[" ++ escape_square_brackets x ++ s "]" | _ => [] end)
   ++ match c with NoValue => [] | AnyValue => s ":::" | Completes _ action => s ":::" ++ action end).
Proof.
  unfold zsh_rest. apply reads_app.
  - destruct desc as [[| a x] |]; try apply reads_nil. apply reads_quote.
  - assert (reads (s ":::") (s ":::")) as K by (change (reads (quote (s ":::")) (s ":::")); apply reads_quote).
    destruct c as [| | f a]; [apply reads_nil | exact K |]. apply reads_app; [exact K | apply reads_quote].
Qed.
Lemma argument_word excludes (many : bool) key desc c : harmless key ->
  zword (zsh_excludes excludes ++ (if many then s "'*'" else [])
    ++ escape_colon key ++ zsh_rest desc c) (argument_text excludes many key desc c).
Proof.
  intros H. rewrite escape_colon_id by (now apply harmless_free). unfold argument_text.
  assert (zword (key ++ zsh_rest desc c) (key ++ (match desc with Some ((_ :: _) as x) => s "[" ++ escape_square_brackets x ++ s "]" | _ => [] end)
    ++ match c with NoValue => [] | AnyValue => s ":::" | Completes _ action => s ":::" ++ action end)) as K1
    by (apply zword_app; [now apply harmless_word | apply rest_reads]).
  assert (reads (key ++ zsh_rest desc c) (key ++ (match desc with Some ((_ :: _) as x) => s "[" ++ escape_square_brackets x ++ s "]" | _ => [] end)
    ++ match c with NoValue => [] | AnyValue => s ":::" | Completes _ action => s ":::" ++ action end)) as K2
    by (apply reads_app; [now apply reads_harmless | apply rest_reads]).
  assert (zword (s "'*'") (s "*")) as K3 by (change (zword (quote (s "*")) (s "*")); now apply zword_quoted).
  assert (reads (s "'*'") (s "*")) as K4 by (change (reads (quote (s "*")) (s "*")); apply reads_quote).
  destruct excludes as [| x excludes].
  - cbn [zsh_excludes app]. destruct many; [now apply zword_app | exact K1].
  - unfold zsh_excludes. apply zword_app.
    + apply zword_quoted. apply needs_first. reflexivity.
    + destruct many; [now apply reads_app | exact K2].
Qed.

(** the text is read as it was meant *)
Lemma read_words_join l rest : (forall x, In x l -> harmless x) -> read_words [] (join [SP] l ++ RPAR :: rest) = Some (l, rest).
Proof.
  assert (forall x w r, harmless x -> read_words w (x ++ r) = read_words (w ++ x) r) as K.
  { intros x w r H. assert (~ In RPAR x /\ ~ In SP x) as [H1 H2] by (split; now apply harmless_free). clear H. revert w.
    induction x as [| c x IH]; intros w; [now rewrite app_nil_r |]. cbn [app read_words].
    destruct (N.eqb_spec c RPAR) as [-> | _]; [cbn in H1; tauto |]. destruct (N.eqb_spec c SP) as [-> | _]; [cbn in H2; tauto |].
    rewrite IH by (cbn in *; tauto). now rewrite <- app_assoc. }
  induction l as [| x l IH]; intros H; [reflexivity |]. pose proof (H x (or_introl eq_refl)) as Hx.
  assert (nonempty x = true) as Hn by (destruct Hx as [Hn _]; destruct x; [congruence | reflexivity]).
  destruct l as [| y l].
  - cbn [join]. rewrite K by exact Hx. cbn [app read_words N.eqb Pos.eqb]. rewrite Hn. reflexivity.
  - rewrite join_cons, <- !app_assoc, K by exact Hx. cbn [app].
    change (read_words x (SP :: join [SP] (y :: l) ++ RPAR :: rest)) with
      (option_map (fun '(l, r) => ((if nonempty x then [x] else []) ++ l, r)) (read_words [] (join [SP] (y :: l) ++ RPAR :: rest))).
    rewrite IH by (intros z Hz; apply H; now right). rewrite Hn. reflexivity.
Qed.
Lemma unescape_brackets x : tame [COLON; LBRK; RBRK] x = true -> unescape [COLON; LBRK; RBRK] (escape_square_brackets x) = x /\
  forall r, upto (starts [RBRK]) (escape_square_brackets x ++ RBRK :: r) = (escape_square_brackets x, RBRK :: r).
Proof.
  assert (escape_square_brackets x = escaped [LBRK; RBRK] x) as ->.
  { unfold escape_square_brackets, escaped. clear. induction x as [| c x IH]; [reflexivity |]. cbn [flat_map]. rewrite <- IH. unfold memc. cbn [existsb].
    rewrite orb_false_r. cbn [replace_c]. destruct (N.eqb_spec c LBRK) as [-> | H1]; [reflexivity |]. cbn [app replace_c].
    destruct (N.eqb_spec c RBRK) as [-> | H2]; reflexivity. }
  intros H. split.
  - induction x as [| c x IH]; [reflexivity |].
    change (escaped [LBRK; RBRK] (c :: x)) with ((if memc c [LBRK; RBRK] then [BS; c] else [c]) ++ escaped [LBRK; RBRK] x).
    assert (Hx : tame [COLON; LBRK; RBRK] x = true). { cbn [tame] in H. now apply andb_true_iff in H as [_ H]. }
    destruct (memc c [LBRK; RBRK]) eqn:Em.
    + apply memc_In in Em. cbn in Em. destruct Em as [<- | [<- | []]].
      * change (LBRK :: unescape [COLON; LBRK; RBRK] (escaped [LBRK; RBRK] x) = LBRK :: x). now rewrite IH.
      * change (RBRK :: unescape [COLON; LBRK; RBRK] (escaped [LBRK; RBRK] x) = RBRK :: x). now rewrite IH.
    + cbn [app unescape]. destruct (N.eqb_spec c BS) as [-> | Hc]; cbn [andb]; [| now rewrite IH].
      destruct x as [| e x]; [reflexivity |]. apply tame_head in H as [He _]. rewrite !memc_cons in He.
      apply orb_false_iff in He as [E1 He]. apply orb_false_iff in He as [E2 He]. apply orb_false_iff in He as [E3 He]. apply orb_false_iff in He as [E4 _].
      replace (starts [COLON; LBRK; RBRK] (escaped [LBRK; RBRK] (e :: x))) with false; [now rewrite IH |].
      change (escaped [LBRK; RBRK] (e :: x)) with ((if memc e [LBRK; RBRK] then [BS; e] else [e]) ++ escaped [LBRK; RBRK] x).
      rewrite !memc_cons, E3, E4. cbn [memc existsb orb app starts]. now rewrite E2, E3, E4.
  - intros r. apply ZshSpecs.upto_escaped; [reflexivity | reflexivity | | now right].
    clear - H. induction x as [| c x IH]; [reflexivity |]. cbn [tame] in *. apply andb_true_iff in H as [H1 H2]. rewrite (IH H2), andb_true_r.
    destruct (N.eqb c BS); [| reflexivity]. destruct x as [| d x]; [exact H1 |]. cbn [at_end_or] in *. apply negb_true_iff in H1. apply negb_true_iff.
    rewrite !memc_cons in *. destruct (N.eqb d BS), (N.eqb d COLON), (N.eqb d LBRK), (N.eqb d RBRK); try discriminate; reflexivity.
Qed.
Lemma unescape_tame a : plain_action a -> unescape [COLON] a = a.
Proof.
  intros [H | H]; [apply unescape_free; intros c [<- | []]; exact H |].
  induction a as [| c a IH]; [reflexivity |]. cbn [tame] in H. apply andb_true_iff in H as [H1 H2]. cbn [unescape].
  assert (N.eqb c BS && starts [COLON] a = false) as ->; [| now rewrite IH].
  destruct (N.eqb c BS); [| reflexivity]. destruct a as [| d a]; [reflexivity |]. cbn [at_end_or starts] in *. apply negb_true_iff in H1.
  rewrite !memc_cons in *. now apply orb_false_iff in H1 as [_ H1].
Qed.
Lemma upto_key key r : harmless key -> (r = [] \/ starts [COLON; LBRK] r = true) -> upto (starts [COLON; LBRK]) (key ++ r) = (key, r).
Proof.
  intros H Hr. assert (~ In COLON key /\ ~ In LBRK key /\ ~ In BS key) as (H1 & H2 & H3) by (repeat split; now apply harmless_free). clear H.
  induction key as [| c key IH].
  - cbn [app]. destruct Hr as [-> | Hr]; [reflexivity |]. destruct r; [discriminate |]. cbn [upto]. now rewrite Hr.
  - cbn [app]. rewrite upto_step.
    + rewrite IH by (cbn in *; tauto). reflexivity.
    + apply N.eqb_neq. intros ->. cbn in H3. tauto.
    + cbn [starts]. apply memc_false. intros [<- | [<- | []]]; cbn in *; tauto.
Qed.
Definition tail_text (c : value_completer) : str := match c with NoValue => [] | AnyValue => s ":::" | Completes _ action => s ":::" ++ action end.
Lemma read_argument_text e excludes many key : harmless key -> (forall x, In x excludes -> harmless x) -> writable e ->
  read_value (argument_text excludes many key (e_description e) (e_completer e)) = Some (ValueSpec excludes many key (shown e) (value_action e)).
Proof.
  intros Hk He (Hd & Ha). unfold argument_text. fold (tail_text (e_completer e)).
  set (desc := match e_description e with Some ((_ :: _) as x) => s "[" ++ escape_square_brackets x ++ s "]" | _ => [] end).
  assert (hd 0%N key <> LPAR /\ hd 0%N key <> STAR) as [K1 K2] by (split; now apply harmless_hd).
  assert (forall r, starts [STAR] (key ++ r) = false /\ starts [LPAR] (key ++ r) = false) as K.
  { intros r. destruct Hk as [Hn _]. destruct key as [| c key]; [congruence |]. cbn in *. split; rewrite orb_false_r; now apply N.eqb_neq. }
  assert (forall (many : bool) r, (if starts [STAR] ((if many then s "*" else []) ++ key ++ r) then tl ((if many then s "*" else []) ++ key ++ r) else (if many then s "*" else []) ++ key ++ r) = key ++ r
    /\ starts [STAR] ((if many then s "*" else []) ++ key ++ r) = many) as Km.
  { intros [] r; [now split |]. cbn [app]. destruct (K r) as [-> _]. now split. }
  assert ((if starts [LPAR] ((match excludes with [] => [] | l => s "(" ++ join [SP] l ++ s ")" end) ++ (if many then s "*" else []) ++ key ++ desc ++ tail_text (e_completer e))
    then read_words [] (tl ((match excludes with [] => [] | l => s "(" ++ join [SP] l ++ s ")" end) ++ (if many then s "*" else []) ++ key ++ desc ++ tail_text (e_completer e)))
    else Some ([], (match excludes with [] => [] | l => s "(" ++ join [SP] l ++ s ")" end) ++ (if many then s "*" else []) ++ key ++ desc ++ tail_text (e_completer e)))
    = Some (excludes, (if many then s "*" else []) ++ key ++ desc ++ tail_text (e_completer e))) as E.
  { destruct excludes as [| x excludes].
    - cbn [app]. destruct many; [reflexivity |]. cbn [app]. now destruct (K (desc ++ tail_text (e_completer e))) as [_ ->].
    - rewrite <- !app_assoc. rewrite <- (read_words_join (x :: excludes) ((if many then s "*" else []) ++ key ++ desc ++ tail_text (e_completer e)) He).
      reflexivity. }
  unfold read_value. rewrite E. destruct (Km many (desc ++ tail_text (e_completer e))) as [-> ->].
  assert (Ht : tail_text (e_completer e) = [] \/ starts [COLON] (tail_text (e_completer e)) = true) by (destruct (e_completer e); auto).
  rewrite upto_key.
  2: exact Hk.
  2: { unfold desc. destruct (e_description e) as [[| a x] |]; [| now right |]; cbn [app]; (destruct Ht as [-> | Ht]; [now left | right]);
       destruct (tail_text (e_completer e)); [discriminate Ht | | discriminate Ht |]; cbn in *; now rewrite orb_false_r in *; rewrite Ht. }
  assert (read_description (desc ++ tail_text (e_completer e)) = Some (shown e, tail_text (e_completer e))) as ->.
  { assert (desc = match described e with [] => [] | y => s "[" ++ escape_square_brackets y ++ s "]" end) as -> by (unfold desc, described; destruct (e_description e) as [[| ? ?] |]; reflexivity).
    unfold shown. destruct (described e) as [| a x].
    - cbn [app]. unfold read_description. destruct (e_completer e); reflexivity.
    - destruct (unescape_brackets (a :: x) Hd) as [U1 U2]. rewrite <- !app_assoc.
      change (s "[" ++ escape_square_brackets (a :: x) ++ s "]" ++ tail_text (e_completer e)) with (LBRK :: escape_square_brackets (a :: x) ++ RBRK :: tail_text (e_completer e)).
      unfold read_description. cbn [starts tl]. change (memc LBRK [LBRK]) with true. cbn iota. rewrite U2. cbn [starts tl]. change (memc RBRK [RBRK]) with true. cbn iota.
      now rewrite U1. }
  rewrite unescape_free by (intros c [<- | []]; now apply harmless_free).
  unfold value_action. destruct (e_completer e) as [| | f a]; [reflexivity | reflexivity |].
  change (tail_text (Completes f a)) with (COLON :: COLON :: COLON :: a). cbn [starts tl skipn].
  change (memc COLON [COLON]) with true. cbn iota. unfold read_message. cbn [upto starts]. change (memc COLON [COLON]) with true. cbn iota.
  cbn [unescape]. now rewrite (unescape_tame a Ha).
Qed.
(** the command *)
Lemma zjoined ts vs : Forall2 zword ts vs -> zsh_array (join [SP] ts) = Some vs.
Proof.
  intros H. apply zwords_array. rewrite <- (app_nil_r (join [SP] ts)). change (zwords ([] ++ join [SP] ts ++ []) vs).
  apply zwords_join; [exact H | intros c [] ..].
Qed.
Lemma zliteral x : x <> [] -> forallb is_safe x = true -> hd 0%N x <> EQ -> zword x x.
Proof. intros Hn Hs He. rewrite <- (safe_word x Hn Hs) at 1. now apply zword_quote. Qed.
Definition one_char (x : str) : Prop := exists c, x = [c].
Lemma one_char_cases x : one_char x -> (x = [EQ] /\ quote x = [EQ]) \/ zword (quote x) x.
Proof.
  intros (c & ->). destruct (N.eq_dec c EQ) as [-> | H]; [now left |]. right. now apply zword_quote.
Qed.
Lemma zsh_command_two vs m : one_char vs -> hd 0%N m <> EQ ->
  zsh_command (s "_values -S " ++ quote vs ++ s " " ++ quote m) [s "_values"; s "-S"; vs; m].
Proof.
  intros Hv Hm. pose proof (zword_quote m Hm) as Km.
  assert (zword (s "_values") (s "_values")) as K1 by (now apply zliteral). assert (zword (s "-S") (s "-S")) as K2 by (now apply zliteral).
  destruct (one_char_cases vs Hv) as [[-> ->] | K].
  - apply (zc_equals (join [SP] [s "_values"; s "-S"]) [s "_values"; s "-S"] (quote m) [m]); [apply zjoined; repeat constructor; assumption |].
    constructor. apply (zjoined [quote m] [m]). repeat constructor; assumption.
  - constructor. apply (zjoined [s "_values"; s "-S"; quote vs; quote m] [s "_values"; s "-S"; vs; m]); repeat constructor; assumption.
Qed.
Lemma zsh_command_three ps vs m : one_char ps -> one_char vs -> hd 0%N m <> EQ ->
  zsh_command (s "_values -s " ++ quote ps ++ s " -S " ++ quote vs ++ s " " ++ quote m) [s "_values"; s "-s"; ps; s "-S"; vs; m].
Proof.
  intros Hp Hv Hm. pose proof (zword_quote m Hm) as Km.
  assert (zword (s "_values") (s "_values")) as K1 by (now apply zliteral). assert (zword (s "-S") (s "-S")) as K2 by (now apply zliteral).
  assert (zword (s "-s") (s "-s")) as K3 by (now apply zliteral).
  destruct (one_char_cases ps Hp) as [[-> ->] | Kp].
  - apply (zc_equals (join [SP] [s "_values"; s "-s"]) [s "_values"; s "-s"] (s "-S " ++ quote vs ++ s " " ++ quote m) [s "-S"; vs; m]); [apply zjoined; repeat constructor; assumption |].
    destruct (one_char_cases vs Hv) as [[-> ->] | K].
    + apply (zc_equals (s "-S") [s "-S"] (quote m) [m]); [apply (zjoined [s "-S"] [s "-S"]); auto |]. constructor. apply (zjoined [quote m] [m]). repeat constructor; assumption.
    + constructor. apply (zjoined [s "-S"; quote vs; quote m] [s "-S"; vs; m]); repeat constructor; assumption.
  - destruct (one_char_cases vs Hv) as [[-> ->] | K].
    + replace (s "_values -s " ++ quote ps ++ s " -S " ++ [EQ] ++ s " " ++ quote m) with (join [SP] [s "_values"; s "-s"; quote ps; s "-S"] ++ s " = " ++ quote m)
        by (cbn [join app]; rewrite <- ?app_assoc; cbn; rewrite <- ?app_assoc; reflexivity).
      apply (zc_equals _ [s "_values"; s "-s"; ps; s "-S"] (quote m) [m]); [apply zjoined; repeat constructor; assumption |]. constructor. apply (zjoined [quote m] [m]). repeat constructor; assumption.
    + constructor. replace (s "_values -s " ++ quote ps ++ s " -S " ++ quote vs ++ s " " ++ quote m) with (join [SP] [s "_values"; s "-s"; quote ps; s "-S"; quote vs; quote m])
        by (cbn [join app]; rewrite <- ?app_assoc; cbn; rewrite <- ?app_assoc; reflexivity).
      apply zjoined. repeat constructor; assumption.
Qed.
Lemma zsh_set f : words zsh (s "local c=" ++ quote f) = Some (assigns zsh f).
Proof.
  cbn [words zsh assigns]. assert (zword (s "local") (s "local")) as K1 by (now apply zliteral).
  assert (zword (s "c=" ++ quote f) (s "c=" ++ f)) as K2 by (apply zword_app; [now apply zliteral | apply reads_quote]).
  apply (zjoined [s "local"; s "c=" ++ quote f] [s "local"; s "c=" ++ f]); repeat constructor; assumption.
Qed.
Theorem zsh_list_right test ps vs m func l : one_char ps -> one_char vs -> hd 0%N m <> EQ ->
  (forall e, In e l -> harmless (own_key e) /\ (forall x, In x (e_excludes e) -> harmless x) /\ writable e) ->
  exists args, calls zsh test (zsh_list_code ps vs m func l) ([s "_values"; s "-s"; ps; s "-S"; vs; m] ++ args) /\
    map read_value args = map (fun e => Some (ValueSpec (e_excludes e) (again e) (own_key e) (shown e) (value_action e))) (filter (applies test func own_key) l).
Proof.
  intros Hp Hv Hm Hl.
  exists (flat_map (fun e => [argument_text (e_excludes e) (again e) (own_key e) (e_description e) (e_completer e)]) (filter (applies test func own_key) l)). split.
  - unfold zsh_list_code, posix_head.
    replace (s "_values -s " ++ quote ps ++ s " -S " ++ quote vs ++ s " " ++ quote m ++ s " ""${a[@]}""") with
      ((s "_values -s " ++ quote ps ++ s " -S " ++ quote vs ++ s " " ++ quote m) ++ all_elements zsh) by (rewrite <- !app_assoc; reflexivity).
    apply (calls_all zsh test own_key _ (fun func e => zsh_list_line func (get_definition e)) func l _ _ (fun f => s "local c=" ++ quote f)).
    + intros e He. destruct (Hl e He) as (Hk & _). unfold zsh_list_line. destruct (definition_key e) as (-> & -> & -> & -> & ->).
      pose proof (zword_array _ _ (argument_word (e_excludes e) (again e) (own_key e) (e_description e) (e_completer e) Hk)) as W.
      assert (forall x, s "a+=(" ++ zsh_excludes (e_excludes e) ++ (if again e then s "'*'" else [])
        ++ escape_colon (own_key e) ++ x ++ s ")" = opening zsh ++ (zsh_excludes (e_excludes e) ++ (if again e then s "'*'" else [])
        ++ escape_colon (own_key e) ++ x) ++ closing zsh) as E by (intros x; rewrite <- !app_assoc; reflexivity).
      rewrite E. destruct func as [f |]; unfold condition; rewrite <- ?(app_assoc (s "$c ")), <- ?(app_assoc (own_key e)).
      * apply (adds_if zsh (own_key e) (own_key e)); [now apply zword_array, harmless_word | exact W].
      * apply (adds_always zsh). exact W.
    + now apply zsh_command_three.
    + intros f _. apply zsh_set.
  - assert (forall e, In e (filter (applies test func own_key) l) -> In e l) as K by (intros e He; now apply filter_In in He as [He _]).
    induction (filter (applies test func own_key) l) as [| e l' IH]; [reflexivity |]. cbn [flat_map app map].
    destruct (Hl e (K e (or_introl eq_refl))) as (Hk & He & Hw). rewrite IH by (intros e' He'; apply K; now right). f_equal. now apply read_argument_text.
Qed.
Theorem zsh_pair_right test vs m func l : one_char vs -> hd 0%N m <> EQ ->
  (forall e, In e l -> harmless (e_key e) /\ writable e) ->
  exists args, calls zsh test (zsh_pair_code vs m func l) ([s "_values"; s "-S"; vs; m] ++ args) /\
    map read_value args = map (fun e => Some (ValueSpec [] false (e_key e) (shown e) (value_action e))) (filter (applies test func e_key) l).
Proof.
  intros Hv Hm Hl.
  exists (flat_map (fun e => [argument_text [] false (e_key e) (e_description e) (e_completer e)]) (filter (applies test func e_key) l)). split.
  - unfold zsh_pair_code, posix_head.
    replace (s "_values -S " ++ quote vs ++ s " " ++ quote m ++ s " ""${a[@]}""") with
      ((s "_values -S " ++ quote vs ++ s " " ++ quote m) ++ all_elements zsh) by (rewrite <- !app_assoc; reflexivity).
    apply (calls_all zsh test e_key _ zsh_pair_line func l _ _ (fun f => s "local c=" ++ quote f)).
    + intros e He. destruct (Hl e He) as (Hk & _). unfold zsh_pair_line.
      pose proof (zword_array _ _ (argument_word [] false (e_key e) (e_description e) (e_completer e) Hk)) as W. cbn [app] in W.
      assert (s "a+=(" ++ escape_colon (e_key e) ++ zsh_rest (e_description e) (e_completer e) ++ s ")" =
        opening zsh ++ (escape_colon (e_key e) ++ zsh_rest (e_description e) (e_completer e)) ++ closing zsh) as E by (rewrite <- !app_assoc; reflexivity).
      rewrite E. destruct func as [f |]; unfold condition; rewrite <- ?(app_assoc (s "$c ")), <- ?(app_assoc (quote (e_key e))).
      * apply (adds_if zsh (quote (e_key e)) (e_key e)); [apply zword_array, zword_quote; now apply harmless_hd | exact W].
      * apply (adds_always zsh). exact W.
    + now apply zsh_command_two.
    + intros f _. apply zsh_set.
  - assert (forall e, In e (filter (applies test func e_key) l) -> In e l) as K by (intros e He; now apply filter_In in He as [He _]).
    induction (filter (applies test func e_key) l) as [| e l' IH]; [reflexivity |]. cbn [flat_map app map].
    destruct (Hl e (K e (or_introl eq_refl))) as (Hk & Hw). rewrite IH by (intros e' He'; apply K; now right). f_equal. apply read_argument_text; auto. intros x [].
Qed.

(** ** The helper in Bash *)
Lemma triples_told l : triples (flat_map (fun e => [own_key e; value_command e; join [SP] (excluded e)]) l) =
  map (fun e => (own_key e, (value_command e, join [SP] (excluded e)))) l.
Proof. induction l as [| e l IH]; [reflexivity |]. cbn [flat_map app triples map]. now rewrite IH. Qed.
Lemma element_told l e : NoDup (map own_key l) -> In e l ->
  element (map (fun e => (own_key e, (value_command e, join [SP] (excluded e)))) l) (own_key e) = Some (value_command e, join [SP] (excluded e)).
Proof.
  intros Hd He. unfold element.
  destruct (find (fun x => str_eqb (fst x) (own_key e)) (rev (map (fun e => (own_key e, (value_command e, join [SP] (excluded e)))) l))) as [x |] eqn:F.
  - apply find_some in F as [F1 F2]. apply in_rev in F1. apply in_map_iff in F1 as (e' & <- & He'). cbn [fst snd] in *. apply str_eqb_eq in F2.
    assert (e' = e) as ->; [| reflexivity]. clear - Hd He He' F2. induction l as [| a l IH]; [destruct He |]. cbn [map] in Hd. inversion Hd as [| ? ? N1 N2]; subst.
    destruct He as [-> | He], He' as [-> | He']; auto; exfalso; apply N1; [rewrite <- F2 | rewrite F2]; now apply in_map.
  - pose proof (find_none _ _ F (own_key e, (value_command e, join [SP] (excluded e)))) as K. cbn [fst] in K.
    assert (str_eqb (own_key e) (own_key e) = false) as K2. { apply K. apply -> in_rev. apply in_map_iff. now exists e. }
    assert (str_eqb (own_key e) (own_key e) = true) by now apply str_eqb_eq. congruence.
Qed.
Lemma element_none l key : (forall e, In e l -> own_key e <> key) ->
  element (map (fun e => (own_key e, (value_command e, join [SP] (excluded e)))) l) key = None.
Proof.
  intros H. unfold element.
  destruct (find (fun x => str_eqb (fst x) key) (rev (map (fun e => (own_key e, (value_command e, join [SP] (excluded e)))) l))) as [x |] eqn:F; [| reflexivity].
  apply find_some in F as [F1 F2]. apply in_rev in F1. apply in_map_iff in F1 as (e' & <- & He'). cbn [fst snd] in *. apply str_eqb_eq in F2. destruct (H e' He' F2).
Qed.
Lemma read_names_join l w : (forall x, In x l -> ~ In SP x) -> (In w (read_names (join [SP] l)) <-> In w l /\ w <> []).
Proof.
  intros H. unfold read_names. rewrite filter_In. assert (forall P Q R : Prop, (Q -> (P <-> R)) -> (P /\ Q <-> R /\ Q)) as K by tauto.
  assert ((match w with [] => false | _ :: _ => true end) = true <-> w <> []) as E by (destruct w; split; congruence). rewrite E. apply K. intros Hw. clear E K.
  destruct l as [| x l]; [cbn; split; [intros [<- | []]; congruence | tauto] |]. revert x H. induction l as [| y l IH]; intros x H.
  - cbn [join]. rewrite split_c_word by (apply H; now left). cbn. tauto.
  - rewrite join_cons. cbn [app]. rewrite split_c_app by (apply H; now left). cbn [In]. rewrite IH by (intros z Hz; apply H; now right). cbn [In]. tauto.
Qed.
Theorem bash_remaining test func l typed key : NoDup (map own_key l) ->
  (forall e x, In e l -> In x (excluded e) -> ~ In SP x) -> key <> [] ->
  (In key (remaining_keys (flat_map (fun e => [own_key e; value_command e; join [SP] (excluded e)]) (filter (applies test func own_key) l)) typed)
   <-> to_be_offered test func l typed key).
Proof.
  intros Hd Hs Hk. unfold remaining_keys. rewrite triples_told. set (l' := filter (applies test func own_key) l).
  assert (Hl : forall e, In e l' <-> In e l /\ applies test func own_key e = true) by (intros e; apply filter_In).
  assert (Hd' : NoDup (map own_key l')).
  { unfold l'. clear - Hd. induction l as [| a l IH]; [constructor |]. cbn [map] in Hd. inversion Hd as [| ? ? N1 N2]; subst. cbn [filter].
    destruct (applies test func own_key a); [| auto]. cbn [map]. constructor; [| auto]. intros K. apply N1. apply in_map_iff in K as (e & <- & He).
    apply filter_In in He as [He _]. now apply in_map. }
  rewrite filter_In, map_map, negb_true_iff. cbn [fst].
  assert (Hm : mems key (having_keys (map (fun e => (own_key e, (value_command e, join [SP] (excluded e)))) l') typed) = false <->
    forall t, In t l -> In (own_key t) typed -> applies test func own_key t = true -> ~ In key (excluded t)).
  { rewrite <- not_true_iff_false, mems_In. unfold having_keys. split.
    - intros H t Ht Hy Ha Hx. apply H. apply in_flat_map. exists (own_key t). split; [exact Hy |].
      rewrite element_told; [| exact Hd' | apply Hl; auto]. apply read_names_join; [intros x Kx; apply (Hs t x); auto |]. auto.
    - intros H K. apply in_flat_map in K as (k & Hy & K).
      destruct (element (map (fun e => (own_key e, (value_command e, join [SP] (excluded e)))) l') k) as [[f ex] |] eqn:E; [| destruct K].
      destruct (in_dec (list_eq_dec N.eq_dec) k (map own_key l')) as [Hi | Hi].
      + apply in_map_iff in Hi as (t & <- & Ht). rewrite element_told in E by auto. injection E as _ <-. apply Hl in Ht as [Ht Ha].
        apply read_names_join in K as [K _]; [| intros x Kx; apply (Hs t x); auto]. exact (H t Ht Hy Ha K).
      + rewrite element_none in E; [discriminate |]. intros e He <-. apply Hi. now apply in_map. }
  rewrite Hm, in_map_iff. unfold to_be_offered. split.
  - intros [(e & <- & He) H]. apply Hl in He as [He Ha]. exists e. auto.
  - intros (e & He & <- & Ha & H). split; [| exact H]. exists e. split; [reflexivity |]. apply Hl. auto.
Qed.
