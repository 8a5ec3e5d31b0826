(** * Proofs about help texts in the usual layout. *)
From Verif Require Import Base HelpParser SpecHelp HelpProofs HelpMore.
Open Scope list_scope.

Lemma memc_false c l : memc c l = false <-> ~ In c l.
Proof. rewrite <- memc_In. destruct (memc c l); intuition; discriminate. Qed.
Lemma eat_space_app sp r : blanks sp -> starts_not blank r -> eat_space (sp ++ r) = (sp, r).
Proof.
  intros Hb Hr. induction sp as [| c sp IH]; cbn [app].
  - destruct r as [| c r]; [reflexivity |]. cbn [eat_space]. specialize (Hr c r eq_refl). rewrite <- blank_memc in Hr.
    destruct (memc c [SP; TAB]); [now destruct Hr | reflexivity].
  - cbn [eat_space]. rewrite (proj2 (blank_memc c) (Hb c (or_introl eq_refl))), IH; [reflexivity |]. intros d Hd. apply Hb. now right.
Qed.
Lemma eat_line_app l r : ~ In LF l -> eat_line (l ++ LF :: r) = (l ++ [LF], r).
Proof.
  intros H. induction l as [| c l IH]; [reflexivity |]. cbn [app eat_line]. destruct (N.eqb_spec c LF) as [-> | Hc]; [destruct H; now left |].
  rewrite IH; [reflexivity |]. intros K. apply H. now right.
Qed.
Lemma option_chars_app o r : (forall c, In c o -> memc c OPTION_BREAK_CHARS = false) -> peek_in OPTION_BREAK_CHARS r = true ->
  option_chars (o ++ r) = (o, r).
Proof.
  intros Ho Hr. induction o as [| c o IH]; cbn [app].
  - destruct r as [| c r]; [discriminate |]. cbn [option_chars]. cbn [peek_in] in Hr. now rewrite Hr.
  - cbn [option_chars]. rewrite (Ho c (or_introl eq_refl)), IH; [reflexivity |]. intros d Hd. apply Ho. now right.
Qed.
Lemma option_string_app sp o r : blanks sp -> option_string o -> peek_in OPTION_BREAK_CHARS r = true ->
  parse_option_string (sp ++ o ++ r) = Some (o, r).
Proof.
  intros Hb ((o' & E) & H1 & H2 & Ho) Hr. unfold parse_option_string.
  rewrite eat_space_app; [| exact Hb | rewrite E; intros c x' K; injection K as <- _; intros [K | K]; discriminate]. cbn [snd].
  rewrite E at 1. cbn [app peek_in memc existsb N.eqb Pos.eqb orb negb]. rewrite option_chars_app; [| | exact Hr].
  - cbn [mems existsb]. destruct (str_eqb_spec o (s "-")); [now destruct H1 |]. destruct (str_eqb_spec o (s "--")); [now destruct H2 |]. reflexivity.
  - intros c Hc. apply memc_false. specialize (Ho c Hc). unfold blank, delimiter in Ho. cbn. intuition; subst; auto.
Qed.
Definition stops (r : str) : Prop := peek_in [SP; TAB; LF; COMMA; PIPE] r = true.
Lemma metavar_stop r : stops r -> parse_metavar_ None r = ([], r).
Proof.
  intros H. destruct r as [| c r]; [discriminate |]. unfold stops in H. cbn [peek_in] in H. apply memc_In in H.
  repeat (destruct H as [<- | H]; [reflexivity |]). destruct H.
Qed.
Lemma metavar_inside d y r : ~ In d y -> parse_metavar_ (Some d) (y ++ d :: r) = (let '(l, q) := parse_metavar_ None r in (y ++ d :: l, q)).
Proof.
  intros H. induction y as [| c y IH]; cbn [app parse_metavar_].
  - rewrite N.eqb_refl. now destruct (parse_metavar_ None r).
  - destruct (N.eqb_spec c d) as [-> | Hc]; [destruct H; now left |]. rewrite IH; [| intros K; apply H; now right]. now destruct (parse_metavar_ None r).
Qed.
Lemma metavar_app m r : metavar_ok m -> stops r -> parse_metavar (m ++ r) = (m, r).
Proof.
  intros Hm Hr. unfold parse_metavar. destruct Hm as [[_ Hm] | (y & -> & Hy)].
  - induction m as [| c m IH]; [now apply metavar_stop |]. destruct (Hm c (or_introl eq_refl)) as (H1 & H2 & H3).
    cbn [app parse_metavar_].
    assert (E1 : memc c [SP; TAB; LF] = false). { apply memc_false. intros [<- | [<- | [<- | []]]]; discriminate. }
    assert (E2 : closing c = None).
    { unfold closing. cbn in H3.
      assert (K : forall d, (d = c -> False) -> N.eqb c d = false) by (intros d Hd; apply N.eqb_neq; congruence).
      rewrite !K by tauto. assert (E : memc c [DQ; SQ] = false) by (apply memc_false; cbn; tauto). now rewrite E. }
    assert (E3 : memc c OPTION_DELIMITER_CHARS = false).
    { destruct (memc c OPTION_DELIMITER_CHARS) eqn:E; [| reflexivity]. now apply delim_memc in E. }
    rewrite E1, E2, E3, IH; [reflexivity |]. intros d Hd. apply Hm. now right.
  - change ((s "<" ++ y ++ s ">") ++ r) with (LT :: (y ++ s ">") ++ r). rewrite <- app_assoc. change (s ">" ++ r) with (GT :: r).
    change (parse_metavar_ None (LT :: y ++ GT :: r)) with (let '(l, q) := parse_metavar_ (Some GT) (y ++ GT :: r) in (LT :: l, q)).
    rewrite metavar_inside by exact Hy. now rewrite metavar_stop.
Qed.
Lemma optional_app m r : ~ In RBRK m -> stops r -> parse_metavar (s "[=" ++ m ++ s "]" ++ r) = (s "[=" ++ m ++ s "]", r).
Proof.
  intros Hm Hr. unfold parse_metavar. change (s "[=" ++ m ++ s "]" ++ r) with (LBRK :: (EQ :: m) ++ RBRK :: r).
  change (parse_metavar_ None (LBRK :: (EQ :: m) ++ RBRK :: r)) with
    (let '(l, q) := parse_metavar_ (Some RBRK) ((EQ :: m) ++ RBRK :: r) in (LBRK :: l, q)).
  rewrite metavar_inside; [now rewrite metavar_stop |]. intros [K | K]; [discriminate | now apply Hm].
Qed.
Lemma comma_delimiter r : parse_option_delimiter (COMMA :: r) = Ok (true, r).
Proof. reflexivity. Qed.
Lemma text_delimiter sp x c x' : blanks sp -> x = c :: x' -> ~ blank c -> ~ delimiter c -> parse_option_delimiter (sp ++ x) = Ok (false, sp ++ x).
Proof.
  intros Hb -> Hc Hd. unfold parse_option_delimiter. rewrite eat_space_app; [| exact Hb | intros d y E; now injection E as <- _]. cbn [snd].
  assert (E : memc c [COMMA; PIPE] = false) by (destruct (memc c [COMMA; PIPE]) eqn:E; [now apply delim_memc in E | reflexivity]). now rewrite E.
Qed.

(** What follows an option: a comma, or two spaces. *)
Definition next_ok (r : str) : Prop := exists r', r = COMMA :: r' \/ r = SP :: SP :: r'.
Lemma next_stops r : next_ok r -> stops r.
Proof. intros (r' & [-> | ->]); reflexivity. Qed.
Lemma metavar_first m : metavar_ok m -> exists c m', m = c :: m' /\ is_space c = false /\ ~ delimiter c.
Proof.
  intros [[Hn Hm] | (y & -> & _)].
  - destruct m as [| c m]; [congruence |]. destruct (Hm c (or_introl eq_refl)) as (H1 & H2 & _). now exists c, m.
  - exists LT, (y ++ s ">"). split; [reflexivity |]. split; [reflexivity |]. intros [K | K]; discriminate.
Qed.
Lemma option_layout sp o r : blanks sp -> option_string (h_name o) -> argument_ok (h_argument o) -> next_ok r ->
  parse_option_with_metavar (sp ++ option_str o ++ r) = Ok (Some (expected_option o, r)).
Proof.
  intros Hb Ho Ha Hr. unfold parse_option_with_metavar, option_str. rewrite <- app_assoc.
  assert (Hs := next_stops r Hr). destruct o as [name arg]. cbn [h_name h_argument] in *.
  assert (Hbr : peek_in OPTION_BREAK_CHARS (argument_str arg ++ r) = true).
  { destruct arg; cbn [argument_str app]; [| reflexivity | reflexivity | reflexivity]. destruct Hr as (r' & [-> | ->]); reflexivity. }
  rewrite (option_string_app sp name _ Hb Ho Hbr). unfold expected_option. cbn [h_name h_argument].
  destruct arg as [| m | m | m]; cbn [argument_str argument_ok] in *.
  - cbn [app]. destruct Hr as (r' & [-> | ->]); [| reflexivity]. destruct r' as [| c r']; reflexivity.
  - change ((s "=" ++ m) ++ r) with (EQ :: m ++ r).
    assert (E : str_eqb (firstn 2 (EQ :: m ++ r)) (s "[=") = false) by (destruct (m ++ r); reflexivity). rewrite E.
    cbn [peek_in tl]. change (memc EQ [EQ]) with true. cbn iota. now rewrite metavar_app.
  - change ((s " " ++ m) ++ r) with (SP :: m ++ r). destruct (metavar_first m Ha) as (c & m' & E & Hc & Hd).
    assert (E1 : str_eqb (firstn 2 (SP :: m ++ r)) (s "[=") = false) by (rewrite E; reflexivity). rewrite E1.
    change (peek_in [EQ] (SP :: m ++ r)) with false. cbn iota.
    assert (E2 : isspace (firstn 2 (SP :: m ++ r)) = false) by (rewrite E; cbn [app firstn isspace forallb]; rewrite Hc; reflexivity). rewrite E2.
    assert (E3 : parse_option_delimiter (SP :: m ++ r) = Ok (false, SP :: m ++ r)).
    { apply (text_delimiter [SP] (m ++ r) c (m' ++ r)); [intros d [<- | []]; now left | now rewrite E | | exact Hd].
      intros [-> | ->]; discriminate. }
    rewrite E3. cbn [bind tl]. change (stream_is_space (SP :: m ++ r)) with true. cbn iota. now rewrite metavar_app.
  - change ((s "[=" ++ m ++ s "]") ++ r) with (s "[=" ++ (m ++ s "]") ++ r). rewrite <- (app_assoc m (s "]") r).
    assert (E : str_eqb (firstn 2 (s "[=" ++ m ++ s "]" ++ r)) (s "[=") = true) by reflexivity. rewrite E.
    now rewrite optional_app.
Qed.

Lemma options_layout os : forall sp fuel acc r, os <> [] -> blanks sp ->
  (forall o, In o os -> option_string (h_name o) /\ argument_ok (h_argument o)) ->
  (exists c x', r = c :: x' /\ ~ blank c /\ ~ delimiter c) ->
  List.length (sp ++ join (s ", ") (map option_str os) ++ s "  " ++ r) <= fuel ->
  options_loop fuel acc (sp ++ join (s ", ") (map option_str os) ++ s "  " ++ r) = Ok (acc ++ map expected_option os, s "  " ++ r).
Proof.
  induction os as [| o os IH]; intros sp fuel acc r Hn Hb Ho Hr Hl; [congruence |].
  destruct (Ho o (or_introl eq_refl)) as [Hs Ha].
  assert (Hne : sp ++ join (s ", ") (map option_str (o :: os)) ++ s "  " ++ r <> []).
  { destruct sp; [| discriminate]. destruct Hs as ((n & E) & _). cbn [app map join]. destruct (map option_str os); unfold option_str; rewrite E; cbn [app]; discriminate. }
  destruct fuel as [| fuel]; [destruct (sp ++ join _ _ ++ _); [congruence | cbn in Hl; lia] |].
  cbn [options_loop].
  assert (M : forall (x : str) (A : Type) (a b : A), x <> [] -> match x with [] => a | _ => b end = b) by (intros x A a b Hx; destruct x; [congruence | reflexivity]).
  rewrite M by exact Hne. cbn [map join]. destruct os as [| o2 os].
  - cbn [map]. rewrite option_layout; [| exact Hb | exact Hs | exact Ha | eexists; right; reflexivity]. cbn [bind].
    destruct Hr as (c & x' & E & H1 & H2). rewrite (text_delimiter (s "  ") r c x'); [| intros d [<- | [<- | []]]; now left | exact E | exact H1 | exact H2].
    reflexivity.
  - cbn [map] in *. set (rest := option_str o2 :: map option_str os) in *.
    rewrite <- !app_assoc. rewrite option_layout; [| exact Hb | exact Hs | exact Ha | eexists; left; reflexivity]. cbn [bind].
    change (parse_option_delimiter (s ", " ++ join (s ", ") rest ++ s "  " ++ r)) with
      (@inr exn _ (true, [SP] ++ join (s ", ") rest ++ s "  " ++ r)). cbn [bind].
    rewrite IH.
    + now rewrite <- app_assoc.
    + discriminate.
    + intros d [<- | []]. now left.
    + intros o' Ho'. apply Ho. now right.
    + exact Hr.
    + change (join (s ", ") (option_str o :: rest)) with (option_str o ++ s ", " ++ join (s ", ") rest) in Hl.
      rewrite !app_length in *. change (List.length (s ", ")) with 2 in Hl. cbn [List.length] in *. lia.
Qed.

Lemma item_start i rest : help_item_ok i -> parse_trailing_description_line (help_item_str i ++ rest) = None.
Proof.
  intros H. destruct i as [text | indent os first more].
  - destruct H as (_ & Hb & _). unfold parse_trailing_description_line. cbn [help_item_str].
    assert (E : stream_is_space ((text ++ [LF]) ++ rest) = false).
    { destruct text as [| c text]; [reflexivity |]. cbn [app stream_is_space peek_in]. specialize (Hb c text eq_refl).
      unfold stream_is_space. cbn [peek_in]. destruct (memc c [SP; TAB]) eqn:E; [now apply blank_memc in E | reflexivity]. }
    now rewrite E.
  - destruct H as (Hb & Hlen & Hn & Ho & _). cbn [help_item_str]. rewrite <- app_assoc.
    set (x := (join (s ", ") (map option_str os) ++ s "  " ++ first ++ [LF] ++ flat_map (fun '(indent, text) => indent ++ text ++ [LF]) more) ++ rest).
    assert (E : exists x', x = DASH :: x').
    { unfold x. destruct os as [| o os]; [congruence |]. destruct (Ho o (or_introl eq_refl)) as [((n & E) & _) _].
      cbn [map join]. destruct (map option_str os); unfold option_str; rewrite E; cbn [app]; eexists; reflexivity. }
    destruct E as (x' & E). unfold parse_trailing_description_line.
    rewrite eat_space_app; [| exact Hb | rewrite E; intros c y K; injection K as <- _; intros [K | K]; discriminate].
    destruct (negb _); [reflexivity |]. rewrite E. change (peek_in [DASH] (DASH :: x')) with true.
    apply Nat.ltb_lt in Hlen. now rewrite Hlen.
Qed.
Lemma trailing_layout more : forall fuel content rest,
  (forall indent text, In (indent, text) more -> blanks indent /\ indent <> [] /\ ~ In LF text /\ starts_not blank text /\
     (List.length indent < 10 -> starts_not (eq DASH) text)) ->
  parse_trailing_description_line rest = None ->
  List.length more < fuel ->
  trailing_lines fuel content (flat_map (fun '(indent, text) => indent ++ text ++ [LF]) more ++ rest) =
    Ok (content ++ flat_map (fun '(_, text) => text ++ [LF]) more, rest).
Proof.
  induction more as [| [indent text] more IH]; intros fuel content rest H Hr Hl; (destruct fuel as [| fuel]; [lia |]); cbn [trailing_lines flat_map].
  - cbn [app]. rewrite Hr. now rewrite app_nil_r.
  - destruct (H indent text (or_introl eq_refl)) as (Hb & Hn & Hlf & Hs & Hd).
    rewrite <- !app_assoc. set (x := flat_map (fun '(indent, text) => indent ++ text ++ [LF]) more ++ rest) in *.
    assert (E : parse_trailing_description_line (indent ++ text ++ [LF] ++ x) = Some (text ++ [LF], x)).
    { unfold parse_trailing_description_line. rewrite eat_space_app; [| exact Hb |].
      - assert (E : stream_is_space (indent ++ text ++ [LF] ++ x) = true).
        { destruct indent as [| c indent]; [congruence |]. apply blank_memc. apply Hb. now left. }
        rewrite E. cbn [negb]. assert (E2 : peek_in [DASH] (text ++ [LF] ++ x) && Nat.ltb (List.length indent) 10 = false).
        { destruct (Nat.ltb_spec (List.length indent) 10) as [Hi | Hi]; [| apply andb_false_r]. specialize (Hd Hi).
          destruct text as [| c text]; [reflexivity |]. specialize (Hd c text eq_refl). cbn [app peek_in memc existsb].
          destruct (N.eqb_spec c DASH); [subst; now destruct Hd | reflexivity]. }
        rewrite E2. change ([LF] ++ x) with (LF :: x). now rewrite eat_line_app.
      - intros c y Ec. destruct text as [| d text]; cbn [app] in Ec; injection Ec as <- _; [intros [K | K]; discriminate | now apply (Hs d text)]. }
    rewrite E. assert (M : exists c l, text ++ [LF] = c :: l) by (destruct text; eexists; eexists; reflexivity).
    destruct M as (c & l & M). rewrite M. rewrite <- M. unfold x. rewrite IH; [now rewrite <- !app_assoc | | exact Hr | cbn in Hl; lia].
    intros i t Hi. apply H. now right.
Qed.
Lemma more_length (more : list (str * str)) : List.length more <= List.length (flat_map (fun '(indent, text) => indent ++ text ++ [LF]) more).
Proof. induction more as [| [i t] more IH]; [reflexivity |]. cbn [flat_map]. rewrite !app_length. cbn. lia. Qed.

Lemma item_layout i rest : help_item_ok i -> parse_trailing_description_line rest = None ->
  match i with
  | Heading text => parse_options_with_description (help_item_str i ++ rest) = Ok None /\ eat_line (help_item_str i ++ rest) = (text ++ [LF], rest)
  | Entry _ _ _ _ => parse_options_with_description (help_item_str i ++ rest) = Ok (Some (expected i, rest))
  end.
Proof.
  intros H Hr. destruct i as [text | indent os first more].
  - destruct H as (Hlf & Hb & Hd). cbn [help_item_str]. rewrite <- app_assoc. split; [| now apply eat_line_app].
    unfold parse_options_with_description.
    assert (E : parse_option_string (text ++ [LF] ++ rest) = None).
    { unfold parse_option_string. change (text ++ [LF] ++ rest) with ([] ++ text ++ [LF] ++ rest). rewrite eat_space_app; [| intros c [] |].
      - cbn [snd app]. assert (E : peek_in [DASH] (text ++ LF :: rest) = false); [| now rewrite E].
        destruct text as [| c text]; [reflexivity |]. specialize (Hd c text eq_refl). cbn [app peek_in memc existsb].
        destruct (N.eqb_spec c DASH); [subst; now destruct Hd | reflexivity].
      - intros c y Ec. destruct text as [| d text]; cbn [app] in Ec; injection Ec as <- _; [intros [K | K]; discriminate | now apply (Hb d text)]. }
    destruct (text ++ [LF] ++ rest) as [| c x] eqn:Ex; [destruct text; discriminate |]. cbn [List.length options_loop].
    unfold parse_option_with_metavar. now rewrite E.
  - destruct H as (Hb & _ & Hn & Ho & Hlf & Hs & Hd & Hm). cbn [help_item_str expected].
    set (m := flat_map (fun '(indent, text) => indent ++ text ++ [LF]) more).
    replace ((indent ++ join (s ", ") (map option_str os) ++ s "  " ++ first ++ [LF] ++ m) ++ rest) with
      (indent ++ join (s ", ") (map option_str os) ++ s "  " ++ (first ++ [LF] ++ m ++ rest)) by now rewrite <- !app_assoc.
    unfold parse_options_with_description.
    assert (Hf : exists c x', first ++ [LF] ++ m ++ rest = c :: x' /\ ~ blank c /\ ~ delimiter c).
    { destruct first as [| c first]; [exists LF, (m ++ rest); split; [reflexivity |]; split; intros [K | K]; discriminate |].
      exists c, (first ++ [LF] ++ m ++ rest). split; [reflexivity |]. split; [now apply (Hs c first) | now apply (Hd c first)]. }
    rewrite options_layout; [| exact Hn | exact Hb | exact Ho | exact Hf | reflexivity]. cbn [bind app].
    destruct (map expected_option os) as [| o0 os0] eqn:Eo; [destruct os; [congruence | discriminate] |]. rewrite <- Eo. clear o0 os0 Eo.
    change (peek_in [SP; TAB; LF] (s "  " ++ first ++ LF :: m ++ rest)) with true. cbn iota.
    unfold parse_description. destruct Hf as (c & x' & Ec & Hc & _). cbn [app] in Ec.
    rewrite eat_space_app; [| intros d [<- | [<- | []]]; now left | rewrite Ec; intros d y K; injection K as <- _; exact Hc]. cbn [snd].
    rewrite eat_line_app by exact Hlf. unfold m. rewrite trailing_layout; [| exact Hm | exact Hr |].
    + cbn [bind]. now rewrite <- app_assoc.
    + pose proof (more_length more). rewrite app_length. lia.
Qed.

Lemma help_start is : (forall i, In i is -> help_item_ok i) -> parse_trailing_description_line (help_text is) = None.
Proof.
  destruct is as [| i is]; [reflexivity |]. intros H. apply item_start. apply H. now left.
Qed.
Lemma layout_loop is : forall fuel acc, (forall i, In i is -> help_item_ok i) -> List.length (help_text is) <= fuel ->
  parse_loop fuel acc (help_text is) = Ok (acc ++ map expected is).
Proof.
  induction is as [| i is IH]; intros fuel acc H Hl; [cbn; destruct fuel; now rewrite app_nil_r |].
  pose proof (item_layout i (help_text is) (H i (or_introl eq_refl)) (help_start is (fun j Hj => H j (or_intror Hj)))) as L.
  assert (Hne : help_item_str i <> []).
  { destruct i as [text | indent os first more]; cbn [help_item_str]; [now destruct text |].
    destruct indent; [| discriminate]. cbn [app]. destruct (join (s ", ") (map option_str os)); discriminate. }
  change (help_text (i :: is)) with (help_item_str i ++ help_text is) in *. rewrite app_length in Hl.
  destruct fuel as [| fuel]; [destruct (help_item_str i); [congruence | cbn in Hl; lia] |]. cbn [parse_loop].
  assert (M : forall (x : str) (A : Type) (a b : A), x <> [] -> match x with [] => a | _ => b end = b) by (intros x A a b Hx; destruct x; [congruence | reflexivity]).
  rewrite M by (destruct (help_item_str i); [congruence | discriminate]).
  assert (Hl' : List.length (help_text is) <= fuel) by (destruct (help_item_str i); [congruence | cbn in Hl; lia]).
  destruct i as [text | indent os first more].
  - destruct L as [-> ->]. cbn [bind]. rewrite IH; [now rewrite <- app_assoc | intros j Hj; apply H; now right | exact Hl'].
  - rewrite L. cbn [bind]. rewrite IH; [now rewrite <- app_assoc | intros j Hj; apply H; now right | exact Hl'].
Qed.
