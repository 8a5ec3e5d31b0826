(** * Proofs: how the translation of patterns can fail. *)
From Verif Require Import Base ShellParser Pattern PatternProofs SpecPattern RegexProofs.
Open Scope list_scope.

Definition value_error {A} (r : res A) : Prop := exists m, r = Err (ValueError m).

Lemma single_quote_total x : value_error (single_quote_loop x) \/ exists v r, single_quote_loop x = Ok (v, r) /\ List.length r <= List.length x.
Proof.
  induction x as [| c x IH]; [left; now eexists |]. cbn [single_quote_loop]. destruct (N.eqb c SQ).
  - right. exists [], x. split; [reflexivity | cbn; lia].
  - destruct IH as [(m & ->) | (v & r & -> & Hl)]; [left; now eexists |]. right. exists (c :: v), r. split; [reflexivity | cbn; lia].
Qed.
Lemma double_quote_total n : forall x, List.length x <= n ->
  value_error (double_quote_loop x) \/ exists v r, double_quote_loop x = Ok (v, r) /\ List.length r <= List.length x.
Proof.
  induction n as [| n IH]; intros x Hn.
  - destruct x; [left; now eexists | cbn in Hn; lia].
  - destruct x as [| c x]; [left; now eexists |]. cbn [double_quote_loop].
    destruct (N.eqb c BS).
    + destruct x as [| d x]; [left; now eexists |].
      destruct (IH x) as [(m & ->) | (v & r & -> & Hl)]; [cbn in *; lia | left; now eexists |]. right. exists (d :: v), r. split; [reflexivity | cbn in *; lia].
    + destruct (N.eqb c DQ); [right; exists [], x; split; [reflexivity | cbn; lia] |].
      destruct (IH x) as [(m & ->) | (v & r & -> & Hl)]; [cbn in *; lia | left; now eexists |]. right. exists (c :: v), r. split; [reflexivity | cbn in *; lia].
Qed.
Lemma lex_literal_length x : List.length (snd (lex_literal x)) <= List.length x.
Proof.
  induction x as [| c x IH]; [reflexivity |]. cbn [lex_literal]. destruct (_ && _); [cbn; lia |]. destruct (memc _ _); [cbn; lia |].
  destruct (lex_literal x) as [l r]. cbn in *. lia.
Qed.
Lemma lex_token_total c x : value_error (lex_token c x) \/ exists t r, lex_token c x = Ok (t, r) /\ List.length r <= List.length x /\
  match t with GOp y => y = [c] \/ (memc c EXTGLOB_TOKENS_PRE = true /\ y = [c; LPAR]) | GLit _ => True end.
Proof.
  unfold lex_token. destruct (memc c EXTGLOB_TOKENS_PRE && next_lpar x) eqn:E.
  { right. exists (GOp [c; LPAR]), (tl x). split; [reflexivity |]. apply andb_prop in E as [E _].
    split; [destruct x; cbn; lia | now right]. }
  clear E. destruct (memc c _); [right; exists (GOp [c]), x; split; [reflexivity |]; split; [lia | now left] |].
  destruct (N.eqb c DQ).
  { destruct (double_quote_total (List.length x) x (le_n _)) as [(m & ->) | (v & r & -> & Hl)]; [left; now eexists |].
    right. exists (GLit v), r. auto. }
  destruct (N.eqb c SQ).
  { destruct (single_quote_total x) as [(m & ->) | (v & r & -> & Hl)]; [left; now eexists |]. right. exists (GLit v), r. auto. }
  pose proof (lex_literal_length x) as Hl. destruct (lex_literal x) as [l r]. right. exists (GLit (c :: l)), r. auto.
Qed.
Lemma lex_total x : value_error (lex x) \/ exists l, lex x = Ok l.
Proof.
  unfold lex. assert (H : forall fuel x, List.length x <= fuel -> value_error (lex_loop fuel x) \/ exists l, lex_loop fuel x = Ok l).
  { clear x. induction fuel as [| fuel IH]; intros x Hl; (destruct x as [| c x]; [right; now eexists |]); [cbn in Hl; lia |].
    cbn [lex_loop]. destruct (lex_token_total c x) as [(m & ->) | (t & r & -> & Hr & _)]; [left; now eexists |]. cbn [bind].
    destruct (IH r) as [(m & ->) | (l & ->)]; [cbn in Hl; lia | left; now eexists | right; now eexists]. }
  apply H. lia.
Qed.

(** Patterns that the parser builds: the kinds of groups are known. *)
Inductive known : pat -> Prop :=
| known_tok t : known (PTok t)
| known_star : known PStar
| known_question : known PQuestion
| known_class x n : known (PClass x n)
| known_ext c alts : memc c EXTGLOB_TOKENS_PRE = true -> (forall a p, In a alts -> In p a -> known p) -> known (PExt c alts).

Lemma class_loop_total l : forall chars n, value_error (class_loop chars n l) \/
  exists p l', class_loop chars n l = Ok (p, l') /\ known p /\ List.length l' < List.length l.
Proof.
  induction l as [| t l IH]; intros chars n; [left; now eexists |]. cbn [class_loop]. destruct (tok_is _ t).
  - right. exists (PClass chars n), l. split; [reflexivity |]. split; [constructor | cbn; lia].
  - destruct (IH (chars ++ tok_str t) n) as [H | (p & l' & -> & Hk & Hl)]; [now left |]. right. exists p, l'. split; [reflexivity |]. split; [exact Hk | cbn; lia].
Qed.
Lemma char_class_total l : value_error (parse_char_class l) \/
  exists p l', parse_char_class l = Ok (p, l') /\ known p /\ List.length l' < List.length l.
Proof.
  destruct l as [| t l]; [left; now eexists |]. cbn [parse_char_class].
  destruct (tok_is (s "!") t); [| destruct (tok_is (s "]") t); [left; now eexists |]];
  match goal with |- context [class_loop ?a ?b l] => destruct (class_loop_total l a b) as [H | (p & l' & -> & Hk & Hl)] end;
  try (now left); right; exists p, l'; (split; [reflexivity |]); (split; [exact Hk | cbn; lia]).
Qed.
Lemma ext_tokens_kind x : mems x EXTGLOB_TOKENS = true -> memc (hd 0%N x) EXTGLOB_TOKENS_PRE = true.
Proof.
  unfold mems, EXTGLOB_TOKENS. intros H. apply existsb_exists in H as (y & Hy & E). apply str_eqb_eq in E. subst x.
  repeat (destruct Hy as [<- | Hy]; [reflexivity |]). destruct Hy.
Qed.
Lemma parse_total fuel :
  (forall l, 2 * List.length l <= fuel -> l <> [] ->
     value_error (parse_token fuel l) \/ exists p l', parse_token fuel l = Ok (p, l') /\ known p /\ List.length l' < List.length l) /\
  (forall c done cur l, 2 * List.length l + 1 <= fuel -> memc c EXTGLOB_TOKENS_PRE = true ->
     (forall a p, In a done -> In p a -> known p) -> (forall p, In p cur -> known p) ->
     value_error (parse_ext_glob fuel c done cur l) \/
     exists p l', parse_ext_glob fuel c done cur l = Ok (p, l') /\ known p /\ List.length l' < List.length l).
Proof.
  induction fuel as [| fuel [IHt IHe]].
  - split; [intros l Hl Hn; destruct l; [congruence | cbn in Hl; lia] | intros c done cur l Hl; lia].
  - split.
    + intros l Hl Hn. destruct l as [| t l]; [congruence |]. cbn [parse_token].
      destruct (tok_is (s "[") t).
      { destruct (char_class_total l) as [H | (p & l' & -> & Hk & Hl')]; [now left |]. right. exists p, l'. split; [reflexivity |]. split; [exact Hk | cbn; lia]. }
      destruct (tok_is (s "*") t); [right; exists PStar, l; split; [reflexivity |]; split; [constructor | cbn; lia] |].
      destruct (tok_is (s "?") t); [right; exists PQuestion, l; split; [reflexivity |]; split; [constructor | cbn; lia] |].
      destruct t as [x | x]; [| right; exists (PTok (GLit x)), l; split; [reflexivity |]; split; [constructor | cbn; lia]].
      destruct (mems x EXTGLOB_TOKENS) eqn:E; [| right; exists (PTok (GOp x)), l; split; [reflexivity |]; split; [constructor | cbn; lia]].
      destruct (IHe (hd 0%N x) [] [] l) as [H | (p & l' & -> & Hk & Hl')]; [cbn in Hl; lia | now apply ext_tokens_kind | intros a p [] | intros p [] | now left |].
      right. exists p, l'. split; [reflexivity |]. split; [exact Hk | cbn; lia].
    + intros c done cur l Hl Hc Hd Hcur. destruct l as [| t l]; [left; now eexists |]. cbn [parse_ext_glob].
      assert (Hd' : forall a p, In a (done ++ [cur]) -> In p a -> known p).
      { intros a p Ha Hp. apply in_app_iff in Ha as [Ha | [<- | []]]; [now apply (Hd a) | now apply Hcur]. }
      destruct (tok_is (s ")") t).
      { right. exists (PExt c (done ++ [cur])), l. split; [reflexivity |]. split; [now constructor | cbn; lia]. }
      destruct (tok_is (s "|") t).
      { destruct (IHe c (done ++ [cur]) [] l) as [H | (p & l' & -> & Hk & Hl')]; [cbn in Hl; lia | exact Hc | exact Hd' | intros p [] | now left |].
        right. exists p, l'. split; [reflexivity |]. split; [exact Hk | cbn; lia]. }
      destruct (IHt (t :: l)) as [(m & ->) | (p & l' & -> & Hk & Hl')]; [lia | discriminate | left; now eexists |]. cbn [bind].
      destruct (IHe c done (cur ++ [p]) l') as [H | (q & l2 & -> & Hk2 & Hl2)]; [cbn in *; lia | exact Hc | exact Hd | | now left |].
      { intros q Hq. apply in_app_iff in Hq as [Hq | [<- | []]]; [now apply Hcur | exact Hk]. }
      right. exists q, l2. split; [reflexivity |]. split; [exact Hk2 | lia].
Qed.
Lemma parse_all_total l : value_error (parse l) \/ exists ps, parse l = Ok ps /\ forall p, In p ps -> known p.
Proof.
  unfold parse.
  assert (H : forall fuel root l, 2 * List.length l + 2 <= fuel -> (forall p, In p root -> known p) ->
    value_error (parse_loop fuel root l) \/ exists ps, parse_loop fuel root l = Ok ps /\ forall p, In p ps -> known p).
  { clear l. induction fuel as [| fuel IH]; intros root l Hl Hr; [lia |].
    destruct l as [| t l]; [right; exists root; split; [reflexivity | exact Hr] |].
    cbn [parse_loop]. destruct (parse_total (S fuel)) as [Ht _].
    destruct (Ht (t :: l)) as [(m & ->) | (p & l' & -> & Hk & Hl')]; [lia | discriminate | left; now eexists |]. cbn [bind].
    apply IH; [cbn in *; lia |]. intros q Hq. apply in_app_iff in Hq as [Hq | [<- | []]]; [now apply Hr | exact Hk]. }
  apply H; [lia | intros p []].
Qed.

(** Strings among the patterns *)
Section PatInd.
Context (P : pat -> Prop).
Context (HTok : forall t, P (PTok t)) (HStar : P PStar) (HQuestion : P PQuestion) (HClass : forall x n, P (PClass x n))
  (HExt : forall c alts, (forall a p, In a alts -> In p a -> P p) -> P (PExt c alts)).
Fixpoint pat_rect' (p : pat) : P p :=
  match p with
  | PTok t => HTok t
  | PStar => HStar
  | PQuestion => HQuestion
  | PClass x n => HClass x n
  | PExt c alts => HExt c alts
      ((fix goa (alts : list (list pat)) : forall a p, In a alts -> In p a -> P p :=
          match alts with
          | [] => fun a p Ha _ => match Ha with end
          | x :: alts' => fun a p Ha Hp =>
              match Ha with
              | or_introl E => (fix gos (l : list pat) : In p l -> P p :=
                    match l with
                    | [] => fun H => match H with end
                    | y :: l' => fun H => match H with
                        | or_introl E' => eq_ind y P (pat_rect' y) p E'
                        | or_intror H' => gos l' H'
                        end
                    end) x (eq_ind_r (fun z => In p z) Hp E)
              | or_intror Ha' => goa alts' a p Ha' Hp
              end
          end) alts)
  end.
End PatInd.
Definition settled {A} (r : res A) : Prop := (exists y, r = Ok y) \/ value_error r \/ r = Err AttributeError.
Section Settled.
Context (f : pat -> res str).
Lemma seq_settled l : (forall p, In p l -> settled (f p)) -> settled (seq_res f l).
Proof.
  induction l as [| p l IH]; intros H; [left; now eexists |]. cbn [seq_res].
  destruct (H p (or_introl eq_refl)) as [(y & ->) | [(m & ->) | ->]]; [| right; left; now eexists | now right; right]. cbn [bind].
  destruct IH as [(z & ->) | [(m & ->) | ->]]; [intros q Hq; apply H; now right | left; now eexists | right; left; now eexists | now right; right].
Qed.
Lemma alts_settled l : (forall a p, In a l -> In p a -> settled (f p)) -> settled (alts_res f l).
Proof.
  induction l as [| a l IH]; intros H; [left; now eexists |]. cbn [alts_res].
  destruct (seq_settled a) as [(y & ->) | [(m & ->) | ->]]; [intros p Hp; apply (H a p); [now left | exact Hp] | | right; left; now eexists | now right; right].
  cbn [bind]. destruct IH as [(z & ->) | [(m & ->) | ->]]; [intros b p Hb Hp; apply (H b p); [now right | exact Hp] | left; now eexists | right; left; now eexists | now right; right].
Qed.
End Settled.
Lemma regex_settled p : known p -> settled (to_regex p).
Proof.
  induction p as [t | | | x n | c alts IH] using pat_rect'; intros Hk; try (left; now eexists).
  - destruct t; [now right; right | left; now eexists].
  - inversion Hk as [| | | | c' alts' Hc Ha]; subst. cbn [to_regex].
    destruct (alts_settled to_regex alts) as [(r & ->) | [(m & ->) | ->]]; [intros a p H1 H2; apply (IH a p H1 H2); now apply (Ha a) | | right; left; now eexists | now right; right].
    cbn [bind]. apply existsb_exists in Hc as (d & Hd & E). apply N.eqb_eq in E. subst d.
    repeat (destruct Hd as [<- | Hd]; [first [left; eexists; reflexivity | right; left; eexists; reflexivity] |]). destruct Hd.
Qed.
Lemma zsh_settled p : known p -> settled (to_zsh_glob p).
Proof.
  induction p as [t | | | x n | c alts IH] using pat_rect'; intros Hk; try (left; now eexists).
  - destruct t; [now right; right | left; now eexists].
  - inversion Hk as [| | | | c' alts' Hc Ha]; subst. cbn [to_zsh_glob].
    destruct (alts_settled to_zsh_glob alts) as [(r & ->) | [(m & ->) | ->]]; [intros a p H1 H2; apply (IH a p H1 H2); now apply (Ha a) | | right; left; now eexists | now right; right].
    cbn [bind]. apply existsb_exists in Hc as (d & Hd & E). apply N.eqb_eq in E. subst d.
    repeat (destruct Hd as [<- | Hd]; [first [left; eexists; reflexivity | right; left; eexists; reflexivity] |]). destruct Hd.
Qed.
Lemma translations_settled x : settled (bash_glob_to_regex x) /\ settled (bash_glob_to_zsh_glob x).
Proof.
  unfold bash_glob_to_regex, bash_glob_to_zsh_glob.
  destruct (lex_total x) as [(m & ->) | (l & ->)]; [split; right; left; now eexists |]. cbn [bind].
  destruct (parse_all_total l) as [(m & ->) | (ps & -> & H)]; [split; right; left; now eexists |]. cbn [bind].
  split; apply seq_settled; intros p Hp; [apply regex_settled | apply zsh_settled]; now apply H.
Qed.
