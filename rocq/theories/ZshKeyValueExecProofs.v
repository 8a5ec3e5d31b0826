(** * Proofs about keys and values that a command prints, in zsh (C127) *)
From Verif Require Import Base PyStr Shell SpecShell ShellProofs ZshUtils SpecZsh ZshReading ZshSpecs ChoicesZsh SpecBashWords Exec
  KeyValue SpecKeyValue KeyValueProofs SpecExec SpecKeyValueRun KeyValueRun KeyValueRunProofs ZshKeyValueExec.
Open Scope list_scope.

Lemma no_bs_tame chars x : ~ In BS x -> tame chars x = true.
Proof.
  induction x as [| c x IH]; intros H; [reflexivity |]. cbn [tame]. destruct (N.eqb_spec c BS) as [-> | _]; [exfalso; apply H; now left |].
  apply IH. intros I. apply H. now right.
Qed.
Lemma escape_desc_escaped x : ~ In BS x -> escape_desc x = escaped [COLON; LBRK; RBRK] x.
Proof.
  unfold escape_desc, escaped. induction x as [| c x IH]; intros H; [reflexivity |]. cbn [flat_map]. rewrite <- IH by (intros I; apply H; now right).
  cbn [replace_c]. destruct (N.eqb_spec c BS) as [-> | Hb]; [exfalso; apply H; now left |]. cbn [app replace_c].
  rewrite !memc_cons. destruct (N.eqb_spec c COLON) as [-> | H1]; [reflexivity |]. cbn [app replace_c].
  destruct (N.eqb_spec c LBRK) as [-> | H2]; [reflexivity |]. cbn [app replace_c]. destruct (N.eqb_spec c RBRK) as [-> | H3]; reflexivity.
Qed.
Lemma last_in_ (c : N) x d : In (last (c :: x) d) (c :: x).
Proof. revert c. induction x as [| e x IH]; intros c; [now left |]. right. exact (IH e). Qed.
(** One argument of [_values]. *)
Definition value_text (excludes : list str) (many : bool) (key d tail : str) : str :=
  (match excludes with [] => [] | l => s "(" ++ join [SP] l ++ s ")" end) ++ (if many then [STAR] else []) ++ key ++ s "[" ++ escape_desc d ++ s "]" ++ tail.
Lemma value_text_read excludes many key d (missing : bool) m a : harmless key -> (forall x, In x excludes -> harmless x) -> ~ In BS d ->
  ~ In COLON m -> ~ In BS m -> ~ In COLON a ->
  read_value (value_text excludes many key d []) = Some (ValueSpec excludes many key (Some d) None) /\
  read_value (value_text excludes many key d ((if missing then s "::" else s ":") ++ m ++ [COLON] ++ a)) =
    (if starts [COLON] (m ++ [COLON] ++ a) && negb missing then read_value (value_text excludes many key d (s ":" ++ m ++ [COLON] ++ a))
     else Some (ValueSpec excludes many key (Some d) (Some (missing, m, a)))).
Proof.
  intros Hk He Hd Hm Hmb Ha.
  assert (hd 0%N key <> LPAR /\ hd 0%N key <> STAR) as [K1 K2] by (split; now apply harmless_hd).
  assert (forall r, starts [STAR] (key ++ r) = false /\ starts [LPAR] (key ++ r) = false) as K.
  { intros r. destruct Hk as [Hn _]. destruct key as [| c key]; [congruence |]. cbn in *. split; rewrite orb_false_r; now apply N.eqb_neq. }
  assert (forall tail, (if starts [LPAR] (value_text excludes many key d tail) then read_words [] (tl (value_text excludes many key d tail)) else Some ([], value_text excludes many key d tail))
    = Some (excludes, (if many then [STAR] else []) ++ key ++ s "[" ++ escape_desc d ++ s "]" ++ tail)) as E.
  { intros tail. unfold value_text. destruct excludes as [| x excludes].
    - cbn [app]. destruct many; [reflexivity |]. cbn [app]. now destruct (K (s "[" ++ escape_desc d ++ s "]" ++ tail)) as [_ ->].
    - rewrite <- !app_assoc. rewrite <- (KeyValueProofs.read_words_join (x :: excludes) ((if many then [STAR] else []) ++ key ++ s "[" ++ escape_desc d ++ s "]" ++ tail) He). reflexivity. }
  assert (forall r, (if starts [STAR] ((if many then [STAR] else []) ++ key ++ r) then tl ((if many then [STAR] else []) ++ key ++ r) else (if many then [STAR] else []) ++ key ++ r) = key ++ r
    /\ starts [STAR] ((if many then [STAR] else []) ++ key ++ r) = many) as Km.
  { intros r. destruct many; [now split |]. cbn [app]. destruct (K r) as [-> _]. now split. }
  assert (forall tail, read_value (value_text excludes many key d tail) = match tail with [] => Some (ValueSpec excludes many key (Some d) None) | _ =>
      if starts [COLON] tail then let missing := starts [COLON] (tl tail) in
        let '(m, a, _) := read_message true (if missing then skipn 2 tail else tl tail) in Some (ValueSpec excludes many key (Some d) (Some (missing, m, a)))
      else None end) as R.
  { intros tail. unfold read_value. rewrite E. destruct (Km (s "[" ++ escape_desc d ++ s "]" ++ tail)) as [-> ->].
    rewrite upto_key by (try exact Hk; right; reflexivity).
    change (s "[" ++ escape_desc d ++ s "]" ++ tail) with (LBRK :: escape_desc d ++ RBRK :: tail). unfold read_description. cbn [starts tl]. change (memc LBRK [LBRK]) with true. cbn iota.
    rewrite (escape_desc_escaped d Hd), (ZshSpecs.upto_escaped [COLON; LBRK; RBRK] RBRK d eq_refl eq_refl (no_bs_tame _ _ Hd)) by now right.
    cbn [starts tl]. change (memc RBRK [RBRK]) with true. cbn iota. rewrite unescape_escaped by (reflexivity || now apply no_bs_tame).
    rewrite unescape_free by (intros c [<- | []]; now apply harmless_free). reflexivity. }
  split; [exact (R []) |]. destruct missing; [| destruct (starts [COLON] (m ++ [COLON] ++ a)) eqn:S; [reflexivity |]]; rewrite R.
  - change (s "::" ++ m ++ [COLON] ++ a) with (COLON :: COLON :: m ++ [COLON] ++ a). cbn [starts tl skipn]. change (memc COLON [COLON]) with true. cbn iota. cbv zeta. cbn iota.
    rewrite andb_false_r. unfold read_message. rewrite (upto_free COLON m Hm ([COLON] ++ a)).
    + cbn [app]. rewrite (unescape_free [COLON] m), (unescape_free [COLON] a) by (intros c [<- | []]; assumption). reflexivity.
    + right. split; [reflexivity |]. intros L. destruct m as [| c m]; [discriminate L |]. apply Hmb. rewrite <- L. apply last_in_.
  - change (s ":" ++ m ++ [COLON] ++ a) with (COLON :: m ++ [COLON] ++ a). cbn [starts tl skipn]. change (memc COLON [COLON]) with true. cbn iota. cbv zeta. rewrite S. cbn [andb].
    unfold read_message. rewrite (upto_free COLON m Hm ([COLON] ++ a)).
    + cbn [app]. rewrite (unescape_free [COLON] m), (unescape_free [COLON] a) by (intros c [<- | []]; assumption). reflexivity.
    + right. split; [reflexivity |]. intros L. destruct m as [| c m]; [discriminate L |]. apply Hmb. rewrite <- L. apply last_in_.
Qed.

(** Lines of keys *)
Definition takes_action (exec func : str) (p : printed) : option (bool * str * str) :=
  match p_takes p with
  | [] => None
  | [_] => Some (false, [SP], exec_action exec func (p_key p))
  | _ => Some (true, [SP], exec_action exec func (p_key p))
  end.
Lemma ends_none k : ~ In 61%N k -> ends_with (s "=") k = false /\ ends_with (s "=?") k = false.
Proof. intros H. split; [now apply ends_eq | now apply ends_eqq]. Qed.
Lemma join_empty (l : list str) : Forall SpecKeyValueRun.word l -> join [SP] l = [] -> l = [].
Proof.
  intros H E. destruct l as [| x l]; [reflexivity |]. inversion H as [| ? ? Hx _]; subst. destruct Hx as (Hx & _). destruct l; cbn [join] in E; [contradiction |].
  apply app_eq_nil in E as [E _]. contradiction.
Qed.
Lemma list_arg exec func p : good_key p -> harmless (p_key p) -> Forall harmless (p_excludes p) -> ~ In BS (p_description p) -> ~ In COLON exec -> ~ In COLON func ->
  (p_again p = true -> p_takes p = []) ->
  read_value (list_exec_arg exec func (key_line p)) = Some (ValueSpec (p_excludes p) (p_again p) (p_key p) (Some (p_description p)) (takes_action exec func p)).
Proof.
  intros Hp Hk He Hd Hx Hf Ha. unfold list_exec_arg. rewrite (line_read p Hp). destruct Hp as (_ & _ & Ke & Kt & _ & _ & _ & Kx). cbv zeta.
  assert (~ In 61%N ((if p_again p then [STAR] else []) ++ p_key p)) as Hh.
  { intros I. apply in_app_or in I as [I | I]; [| contradiction]. destruct (p_again p); [destruct I as [I | []]; discriminate | destruct I]. }
  assert (match join [SP] (p_excludes p) with [] => [] | _ => s "(" ++ join [SP] (p_excludes p) ++ s ")" end = match p_excludes p with [] => [] | l => s "(" ++ join [SP] l ++ s ")" end) as ->.
  { destruct (p_excludes p) as [| x l] eqn:El; [reflexivity |]. destruct (join [SP] (x :: l)) eqn:E; [| reflexivity]. rewrite <- El in *. apply join_empty in E; [congruence | exact Kx]. }
  assert (~ In COLON (exec_action exec func (p_key p))) as Hact.
  { unfold exec_action. rewrite !in_app_iff. intros [I | [I | [I | [I | [I | [I | I]]]]]]; try contradiction; try (cbn in I; intuition discriminate).
    revert I. now apply harmless_free. }
  rewrite Forall_forall in He. unfold takes_action.
  destruct Kt as [Kt | [Kt | [Kt | []]]]; rewrite <- Kt in *.
  - rewrite app_nil_r. destruct (ends_none _ Hh) as [-> ->].
    destruct (value_text_read (p_excludes p) (p_again p) (p_key p) (p_description p) true [] [] Hk He Hd) as [R _]; try (intros []). rewrite <- R. f_equal. unfold value_text.
    rewrite ?app_nil_r, <- !app_assoc. destruct (p_excludes p); reflexivity.
  - assert (p_again p = false) as -> by (destruct (p_again p); [discriminate (Ha eq_refl) | reflexivity]). cbn [app].
    rewrite ValueListProofs.ends_with_app. unfold but_last. rewrite app_length. change (List.length (s "=")) with 1%nat. rewrite Nat.add_sub, firstn_app, Nat.sub_diag, firstn_all. cbn [firstn]. rewrite app_nil_r.
    destruct (value_text_read (p_excludes p) false (p_key p) (p_description p) false [SP] (exec_action exec func (p_key p)) Hk He Hd) as [_ R]; try exact Hact; try (cbn; intuition discriminate).
    change (starts [COLON] ([SP] ++ [COLON] ++ exec_action exec func (p_key p))) with false in R. cbn [andb] in R. etransitivity; [| exact R]. f_equal. unfold value_text. destruct (p_excludes p); reflexivity.
  - assert (p_again p = false) as -> by (destruct (p_again p); [discriminate (Ha eq_refl) | reflexivity]). cbn [app].
    assert (ends_with (s "=") (p_key p ++ s "=?") = false) as ->. { unfold ends_with. rewrite rev_app_distr. reflexivity. }
    rewrite ValueListProofs.ends_with_app. unfold but_last. rewrite app_length. change (List.length (s "=?")) with 2%nat. rewrite Nat.add_sub, firstn_app, Nat.sub_diag, firstn_all. cbn [firstn]. rewrite app_nil_r.
    destruct (value_text_read (p_excludes p) false (p_key p) (p_description p) true [SP] (exec_action exec func (p_key p)) Hk He Hd) as [_ R]; try exact Hact; try (cbn; intuition discriminate).
    change (starts [COLON] ([SP] ++ [COLON] ++ exec_action exec func (p_key p))) with false in R. cbn [andb] in R. etransitivity; [| exact R]. f_equal. unfold value_text. destruct (p_excludes p); reflexivity.
Qed.
(** The action is a command: the helper, and one word for the command. *)
Lemma action_words exec func key : harmless exec -> harmless key -> ~ In SQ func ->
  exists command, exec_action exec func key = s "{" ++ command ++ s "}" /\ zsh_array command = Some [exec; func ++ [SP] ++ key].
Proof.
  intros He Hk Hf. exists (join [SP] [exec; quote (func ++ [SP] ++ key)]).
  assert (~ In SQ (func ++ [SP] ++ key)) as Hn.
  { rewrite !in_app_iff. intros [I | [[I | []] | I]]; [contradiction | discriminate |]. revert I. now apply harmless_free. }
  assert (needs_quote (func ++ [SP] ++ key) = true /\ quote (func ++ [SP] ++ key) = SQ :: (func ++ [SP] ++ key) ++ [SQ]) as [N1 N2].
  { destruct (quote_cases (func ++ [SP] ++ key)) as [[Hs _] | [[H1 [_ E]] | [[_ [Hq _]] | [_ [Hq _]]]]].
    - exfalso. rewrite forallb_forall in Hs. specialize (Hs SP). rewrite in_app_iff in Hs. discriminate (Hs (or_intror (or_introl eq_refl))).
    - now split.
    - contradiction.
    - contradiction. }
  split.
  - unfold exec_action. cbn [join]. rewrite N2. change (s " '") with [SP; SQ]. change (s "'}") with [SQ; 125%N]. change (s "}") with [125%N]. change (s " ") with [SP].
    change (SQ :: (func ++ [SP] ++ key) ++ [SQ]) with ([SQ] ++ (func ++ [SP] ++ key) ++ [SQ]). change [SP; SQ] with ([SP] ++ [SQ]). change [SQ; 125%N] with ([SQ] ++ [125%N]).
    rewrite <- !app_assoc. reflexivity.
  - apply zjoined. constructor; [now apply harmless_word |]. constructor; [| constructor]. now apply zword_quoted.
Qed.
Lemma pair_arg exec func key (takes : bool) d : harmless key -> good_entry (key ++ (if takes then s "=" else []), d) -> ~ In EQ key ->
  match d with Some x => ~ In BS x | None => True end -> ~ In COLON exec -> ~ In COLON func ->
  read_value (pair_exec_arg exec func (ExecProofs.entry_line (key ++ (if takes then s "=" else []), d))) =
    Some (ValueSpec [] false key (Some (match d with Some x => x | None => [] end)) (if takes then Some (true, [], exec_action exec func key) else None)).
Proof.
  intros Hk Hg Hq Hd Hx Hf. unfold pair_exec_arg. rewrite (ExecProofs.read_entry _ Hg). cbn [fst snd]. set (dd := match d with Some x => x | None => [] end).
  assert (~ In BS dd) as Hb by (destruct d; [exact Hd | intros []]). clearbody dd. clear d Hg Hd.
  assert (~ In COLON (exec_action exec func key)) as Hact.
  { unfold exec_action. rewrite !in_app_iff. intros [I | [I | [I | [I | [I | [I | I]]]]]]; try contradiction; try (cbn in I; intuition discriminate). revert I. now apply harmless_free. }
  destruct takes.
  - rewrite ValueListProofs.ends_with_app. unfold but_last. rewrite app_length. change (List.length (s "=")) with 1%nat. rewrite Nat.add_sub, firstn_app, Nat.sub_diag, firstn_all. cbn [firstn]. rewrite app_nil_r.
    destruct (value_text_read [] false key dd true [] (exec_action exec func key) Hk) as [_ R]; try exact Hact; try exact Hb; try (intros ? []); try (intros []).
    rewrite andb_false_r in R. exact R.
  - rewrite app_nil_r, ends_eq by exact Hq. destruct (value_text_read [] false key dd true [] [] Hk) as [R _]; try exact Hb; try (intros ? []); try (intros []). exact R.
Qed.
