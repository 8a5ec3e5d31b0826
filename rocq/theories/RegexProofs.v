(** * Proofs: the regular expressions that crazy_complete/pattern.py writes. *)
From Verif Require Import Base ShellParser Pattern SpecShell SpecGlob SpecRegex SpecPattern BashPatternsProofs GlobMatch
  PatternProofs.
Open Scope list_scope.

(** ** Escaping *)
Definition escape_in (cs : str) (c : N) : str := if memc c cs then [BS; c] else [c].
Lemma replace_flat c r x : replace_c c r x = flat_map (fun d => if N.eqb d c then r else [d]) x.
Proof. induction x as [| d x IH]; [reflexivity |]. cbn. rewrite IH. destruct (N.eqb d c); reflexivity. Qed.
Lemma flat_map_flat_map {A B C} (f : A -> list B) (g : B -> list C) l :
  flat_map g (flat_map f l) = flat_map (fun a => flat_map g (f a)) l.
Proof. induction l as [| a l IH]; [reflexivity |]. cbn. rewrite flat_map_app, IH. reflexivity. Qed.
Lemma memc_In c l : memc c l = true <-> In c l.
Proof.
  unfold memc. rewrite existsb_exists. split; [intros (d & Hd & E); apply N.eqb_eq in E; now subst | intros H; exists c; split; [exact H | apply N.eqb_refl]].
Qed.
Lemma memc_not_In c l : memc c l = false <-> ~ In c l.
Proof. rewrite <- memc_In. destruct (memc c l); split; congruence. Qed.
Lemma replace_all cs : NoDup cs -> ~ In BS cs -> forall x,
  fold_left (fun x c => replace_c c [BS; c] x) cs x = flat_map (escape_in cs) x.
Proof.
  induction cs as [| c cs IH]; intros Hnd Hb x.
  - cbn. induction x as [| d x IHx]; [reflexivity |]. cbn. now rewrite <- IHx.
  - inversion Hnd as [| c' cs' Hc Hnd']; subst. cbn [fold_left].
    rewrite (IH Hnd'), replace_flat, flat_map_flat_map by (intros H; apply Hb; now right).
    apply flat_map_ext. intros d. unfold escape_in at 2. cbn [memc existsb].
    destruct (N.eqb_spec d c) as [-> | Hd].
    + cbn [orb flat_map app]. unfold escape_in.
      rewrite (proj2 (memc_not_In BS cs)) by (intros H; apply Hb; now right).
      rewrite (proj2 (memc_not_In c cs) Hc). reflexivity.
    + cbn [orb flat_map]. rewrite app_nil_r. reflexivity.
Qed.
Lemma literal_flat x : literal_to_regex x = flat_map (escape_in literal_escape_chars) x.
Proof.
  apply replace_all; [| cbn; intuition discriminate].
  unfold literal_escape_chars. cbn. repeat constructor; cbn; intuition discriminate.
Qed.
Lemma replace_absent c r x : ~ In c x -> replace_c c r x = x.
Proof.
  induction x as [| d x IH]; intros H; [reflexivity |]. cbn. destruct (N.eqb_spec d c) as [-> |]; [cbn in H; tauto |].
  rewrite IH; [reflexivity |]. cbn in H. tauto.
Qed.
Lemma class_flat chars n : ~ In CARET chars -> ~ In BS chars ->
  class_to_regex chars n = s "[" ++ (if n then s "^" else []) ++ flat_map (escape_in [DOT; LBRK; RBRK]) chars ++ s "]".
Proof.
  intros H1 H2. unfold class_to_regex.
  assert (E : fold_left (fun x c => replace_c c [BS; c] x) class_escape_chars chars = flat_map (escape_in [DOT; LBRK; RBRK]) chars).
  { change class_escape_chars with (CARET :: BS :: [DOT; LBRK; RBRK]). cbn [fold_left].
    rewrite (replace_absent CARET), (replace_absent BS) by assumption.
    apply (replace_all [DOT; LBRK; RBRK]); [repeat constructor; cbn; intuition discriminate | cbn; intuition discriminate]. }
  rewrite E. destruct n; reflexivity.
Qed.

(** ** What the pieces mean *)
Definition bstep (b : bracket) (c : N) : bracket :=
  if N.eqb c DASH && negb (b_dash b) && (match b_last b with Some _ => true | None => false end)
  then MkBracket (b_negated b) (b_items b) (b_last b) true false
  else bracket_add b c.
Definition bresult (n : bool) (chars : str) : bracket := fold_left bstep chars (MkBracket n [] None false true).
Fixpoint gl_of (p : piece) : list glob :=
  match p with
  | Lit l => map Char (lit_chars l)
  | Any => [AnyChar]
  | Some_text => [AnyText]
  | Bracket n body => [bracket_close (bresult n (flat_map lit_chars body))]
  | Group k alts => [Ext k (map (flat_map gl_of) alts)]
  end.
Lemma bracket_add_negated b c : b_negated (bracket_add b c) = b_negated b.
Proof. unfold bracket_add. destruct (b_last b); [destruct (b_dash b) |]; reflexivity. Qed.
Lemma bstep_start b c : b_start (bstep b c) = false.
Proof.
  unfold bstep. destruct (_ && _); [reflexivity |]. unfold bracket_add.
  destruct (b_last b); [destruct (b_dash b) |]; reflexivity.
Qed.
Lemma bresult_start n chars : chars <> [] -> b_start (bresult n chars) = false.
Proof.
  unfold bresult. intros H. destruct (exists_last H) as (l & c & ->). rewrite fold_left_app. cbn. apply bstep_start.
Qed.

(** ** Reading the pattern *)
Lemma reads_single x : x <> [] -> ~ In SQ x -> reads (s "'" ++ x ++ s "'") (map Char x).
Proof.
  intros Hn Hx. split; [discriminate |]. split; [discriminate |]. intros top st alts cur rest Hr.
  assert (L : forall x, ~ In SQ x -> forall gs, read top GSingle st alts (Some gs) None (x ++ SQ :: rest) =
    read top GPlain st alts (Some (gs ++ map Char x)) None rest).
  { clear. induction x as [| c x IH]; intros Hx gs.
    - cbn. now rewrite app_nil_r.
    - cbn [app read]. destruct (N.eqb_spec c SQ) as [-> |]; [cbn in Hx; tauto |]. cbn [literal]. unfold glob_push.
      rewrite IH by (cbn in Hx; tauto). now rewrite <- app_assoc. }
  rewrite <- !app_assoc. change (s "'" ++ x ++ s "'" ++ rest) with (SQ :: x ++ SQ :: rest).
  rewrite read_plain. cbn [N.eqb Pos.eqb]. unfold glob_start. rewrite L by exact Hx.
  destruct x as [| c x]; [now destruct Hn |]. destruct cur; reflexivity.
Qed.
Lemma reads_double x : x <> [] -> ~ In DQ x -> ~ In BS x -> ~ In DOLLAR x -> ~ In BTICK x -> reads ([DQ] ++ x ++ [DQ]) (map Char x).
Proof.
  intros Hn H1 H2 H3 H4. split; [discriminate |]. split; [discriminate |]. intros top st alts cur rest Hr.
  assert (L : forall x, ~ In DQ x -> ~ In BS x -> ~ In DOLLAR x -> ~ In BTICK x ->
    forall gs, read top GDouble st alts (Some gs) None (x ++ DQ :: rest) =
    read top GPlain st alts (Some (gs ++ map Char x)) None rest).
  { clear. induction x as [| c x IH]; intros H1 H2 H3 H4 gs.
    - cbn. now rewrite app_nil_r.
    - cbn [app read]. destruct (N.eqb_spec c DQ) as [-> |]; [cbn in H1; tauto |].
      destruct (N.eqb_spec c BS) as [-> |]; [cbn in H2; tauto |].
      destruct (N.eqb_spec c DOLLAR) as [-> |]; [cbn in H3; tauto |].
      destruct (N.eqb_spec c BTICK) as [-> |]; [cbn in H4; tauto |]. cbn [orb literal]. unfold glob_push.
      cbn in H1, H2, H3, H4. rewrite IH by tauto. now rewrite <- app_assoc. }
  rewrite <- !app_assoc. change ([DQ] ++ x ++ [DQ] ++ rest) with (DQ :: x ++ DQ :: rest).
  rewrite read_plain. cbn [N.eqb Pos.eqb]. unfold glob_start. rewrite L by assumption.
  destruct x as [| c x]; [now destruct Hn |]. destruct cur; reflexivity.
Qed.
Lemma reads_question : reads [QM] [AnyChar].
Proof.
  split; [discriminate |]. split; [discriminate |]. intros top st alts cur rest Hr. cbn [app]. rewrite read_plain.
  assert (E : ext_open QM rest = None).
  { unfold ext_open. destruct rest as [| d rest]; [reflexivity |].
    destruct (N.eqb_spec d LPAR) as [-> |]; [now destruct Hr | reflexivity]. }
  rewrite E. destruct cur; reflexivity.
Qed.
Lemma reads_text : reads [STAR] [AnyText].
Proof.
  split; [discriminate |]. split; [discriminate |]. intros top st alts cur rest Hr. cbn [app]. rewrite read_plain.
  assert (E : ext_open STAR rest = None).
  { unfold ext_open. destruct rest as [| d rest]; [reflexivity |].
    destruct (N.eqb_spec d LPAR) as [-> |]; [now destruct Hr | reflexivity]. }
  rewrite E. destruct cur; reflexivity.
Qed.
Lemma reads_group k parts : (forall p, In p parts -> reads (fst p) (snd p)) -> parts <> [] ->
  reads ([kind_char k] ++ s "(" ++ join (s "|") (map fst parts) ++ s ")") [Ext k (map snd parts)].
Proof.
  intros Hp Hn. split; [destruct k; discriminate |]. split; [discriminate |]. intros top st alts cur rest Hr.
  rewrite <- !app_assoc.
  transitivity (read top GPlain ((k, alts, cur) :: st) [] None None
    (join (s "|") (map fst parts) ++ s ")" ++ rest)).
  { set (y := join _ _ ++ _). change ([kind_char k] ++ s "(" ++ y) with (kind_char k :: LPAR :: y). rewrite read_plain.
    destruct k; reflexivity. }
  rewrite reads_join by assumption. destruct cur; reflexivity.
Qed.

Lemma plain_bracket_step top st alts cur b c x : plain c = true ->
  read top GPlain st alts cur (Some b) (c :: x) = read top GPlain st alts cur (Some (bstep b c)) x.
Proof.
  intros Hp. pose proof (plain_facts c Hp) as F. rewrite read_plain.
  rewrite (F SQ), (F DQ), (F BS), (F BANG), (F CARET), (F RBRK), (F LBRK) by (cbn; tauto).
  cbn [memc existsb]. rewrite (F DOLLAR), (F BTICK), (F SP), (F TAB), (F LF) by (cbn; tauto).
  cbn [orb andb]. rewrite andb_false_r. unfold bstep.
  destruct (N.eqb c DASH && negb (b_dash b) && match b_last b with Some _ => true | None => false end); reflexivity.
Qed.
Lemma bstep_quoted b c : c <> DASH -> bstep b c = bracket_add b c.
Proof. intros H. unfold bstep. now rewrite (proj2 (N.eqb_neq c DASH) H). Qed.
Lemma body_read top st alts cur body : forallb lit_ok body = true -> existsb quoted_dash body = false -> forall b rest,
  read top GPlain st alts cur (Some b) (flat_map lit_text body ++ rest) =
  read top GPlain st alts cur (Some (fold_left bstep (flat_map lit_chars body) b)) rest.
Proof.
  induction body as [| l body IH]; intros Hok Hd b rest; [reflexivity |].
  cbn [forallb existsb] in Hok, Hd. apply andb_prop in Hok as [Hl Hok]. apply orb_false_iff in Hd as [Hq Hd].
  destruct (lit_ok_cases l Hl) as (_ & Hno & Hc).
  cbn [flat_map]. rewrite fold_left_app, <- app_assoc.
  destruct l as [c | x | x]; cbn [lit_text lit_chars quoted_dash] in *.
  - cbn [app]. rewrite plain_bracket_step by exact Hc. now apply IH.
  - apply memc_not_In in Hq.
    assert (L : forall x b rest, ~ In SQ x -> ~ In DASH x -> read top GSingle st alts cur (Some b) (x ++ SQ :: rest) =
      read top GPlain st alts cur (Some (fold_left bstep x b)) rest).
    { clear. induction x as [| c x IH]; intros b rest H1 H2; [reflexivity |]. cbn [app read].
      destruct (N.eqb_spec c SQ) as [-> |]; [cbn in H1; tauto |]. cbn [literal fold_left].
      rewrite (bstep_quoted b c) by (cbn in H2; firstorder congruence). cbn in H1, H2. apply IH; tauto. }
    rewrite <- !app_assoc. change (s "'" ++ x ++ s "'" ++ flat_map lit_text body ++ rest)
      with (SQ :: x ++ SQ :: flat_map lit_text body ++ rest). rewrite read_plain. cbn [N.eqb Pos.eqb].
    rewrite L by assumption. now apply IH.
  - destruct Hc as (Hdq & Hbs & Hbt). apply memc_not_In in Hq.
    assert (L : forall x b rest, ~ In DQ x -> ~ In BS x -> ~ In DOLLAR x -> ~ In BTICK x -> ~ In DASH x ->
      read top GDouble st alts cur (Some b) (x ++ DQ :: rest) =
      read top GPlain st alts cur (Some (fold_left bstep x b)) rest).
    { clear. induction x as [| c x IH]; intros b rest H1 H2 H3 H4 H5; [reflexivity |]. cbn [app read].
      destruct (N.eqb_spec c DQ) as [-> |]; [cbn in H1; tauto |].
      destruct (N.eqb_spec c BS) as [-> |]; [cbn in H2; tauto |].
      destruct (N.eqb_spec c DOLLAR) as [-> |]; [cbn in H3; tauto |].
      destruct (N.eqb_spec c BTICK) as [-> |]; [cbn in H4; tauto |]. cbn [orb literal fold_left].
      rewrite (bstep_quoted b c) by (cbn in H5; firstorder congruence). cbn in H1, H2, H3, H4, H5. apply IH; tauto. }
    rewrite <- !app_assoc. change ([DQ] ++ x ++ [DQ] ++ flat_map lit_text body ++ rest)
      with (DQ :: x ++ DQ :: flat_map lit_text body ++ rest). rewrite read_plain. cbn [N.eqb Pos.eqb].
    rewrite L; try assumption; [now apply IH |]. intros H. now apply (Hno DOLLAR H).
Qed.
Lemma body_chars body : body <> [] -> forallb lit_ok body = true -> flat_map lit_chars body <> [].
Proof.
  destruct body as [| l body]; [congruence |]. intros _ H. cbn in H. apply andb_prop in H as [H _].
  destruct (lit_ok_cases l H) as (Hn & _). cbn. destruct (lit_chars l); [now destruct Hn | discriminate].
Qed.
Lemma reads_bracket kinds n body : piece_ok kinds (Bracket n body) = true ->
  reads (text (Bracket n body)) (gl_of (Bracket n body)).
Proof.
  cbn [piece_ok]. intros H. apply andb_prop in H as [H Hord]. apply andb_prop in H as [H Hdash].
  apply andb_prop in H as [Hne Hok]. apply negb_true_iff in Hdash.
  split; [discriminate |]. split; [discriminate |]. intros top st alts cur rest Hr.
  assert (Hb : body <> []) by (destruct body; discriminate).
  cbn [text gl_of]. rewrite <- !app_assoc.
  transitivity (read top GPlain st alts (glob_start cur) (Some (MkBracket n [] None false true))
    (flat_map lit_text body ++ s "]" ++ rest)).
  { set (z := flat_map lit_text body ++ s "]" ++ rest). destruct n.
    - change (s "[" ++ s "!" ++ z) with (LBRK :: BANG :: z). rewrite read_plain. cbn -[read z]. rewrite read_plain.
      cbn -[read z]. reflexivity.
    - change (s "[" ++ [] ++ z) with (LBRK :: z). rewrite read_plain.
      assert (E : ext_open LBRK z = None) by (destruct z; [| cbn -[N.eqb]; destruct (N.eqb _ _)]; reflexivity).
      rewrite E. cbn -[read z]. reflexivity. }
  rewrite body_read by assumption. fold (bresult n (flat_map lit_chars body)).
  pose proof (bresult_start n (flat_map lit_chars body) (body_chars body Hb Hok)) as Es.
  set (b := bresult _ _) in *. change (s "]" ++ rest) with (RBRK :: rest). rewrite read_plain.
  cbn [N.eqb Pos.eqb]. rewrite Es. cbn [andb negb].
  destruct cur; reflexivity.
Qed.

Lemma reads_pieces kinds ps : forallb (piece_ok kinds) ps = true ->
  (forall p, In p ps -> match p with Group _ _ => reads (text p) (gl_of p) | _ => True end) ->
  reads (flat_map text ps) (flat_map gl_of ps).
Proof.
  induction ps as [| p ps IH]; intros Hok Hg; [apply reads_nil |]. cbn [forallb] in Hok. apply andb_prop in Hok as [Hp Hok].
  cbn [flat_map]. apply reads_app; [| apply IH; [exact Hok | intros q Hq; apply Hg; now right]].
  destruct p as [l | | | n body | k alts].
  - destruct (lit_ok_cases l Hp) as (Hn & Hno & Hc). destruct l as [c | x | x]; cbn [text lit_text gl_of lit_chars] in *.
    + now apply reads_char.
    + now apply reads_single.
    + destruct Hc as (H1 & H2 & H3). apply reads_double; try assumption. intros H. now apply (Hno DOLLAR H).
  - apply reads_question.
  - apply reads_text.
  - exact (reads_bracket kinds n body Hp).
  - exact (Hg _ (or_introl eq_refl)).
Qed.
Lemma reads_piece_group kinds p : piece_ok kinds p = true -> match p with Group _ _ => reads (text p) (gl_of p) | _ => True end.
Proof.
  induction p as [| | | |k alts IH] using piece_rect'; intros Hok; try exact I.
  cbn [piece_ok] in Hok. apply andb_prop in Hok as [Hok Hall]. apply andb_prop in Hok as [Hk Hne].
  pose proof (reads_group k (map (fun a => (flat_map text a, flat_map gl_of a)) alts)) as H.
  rewrite !map_map in H. cbn [fst snd] in H. apply H.
  - intros q Hq. apply in_map_iff in Hq as (a & <- & Ha). cbn [fst snd]. rewrite forallb_forall in Hall.
    specialize (Hall a Ha). apply (reads_pieces kinds); [exact Hall |]. rewrite forallb_forall in Hall.
    intros p Hp. apply (IH a p Ha Hp). now apply Hall.
  - destruct alts; discriminate.
Qed.
Lemma reads_all kinds ps : forallb (piece_ok kinds) ps = true -> reads (flat_map text ps) (flat_map gl_of ps).
Proof.
  intros H. apply (reads_pieces kinds); [exact H |]. rewrite forallb_forall in H. intros p Hp. now apply (reads_piece_group kinds), H.
Qed.
Lemma gl_of_nonempty kinds p : piece_ok kinds p = true -> gl_of p <> [].
Proof.
  destruct p as [l | | | |]; cbn [gl_of piece_ok]; try discriminate. intros H.
  destruct (lit_ok_cases l H) as (Hn & _). destruct (lit_chars l); [now destruct Hn | discriminate].
Qed.
Lemma pattern_read kinds ps : ps <> [] -> forallb (piece_ok kinds) ps = true ->
  read_glob (flat_map text ps) = Some (flat_map gl_of ps).
Proof.
  intros Hn H. destruct (reads_all kinds ps H) as (_ & _ & R). unfold read_glob.
  rewrite <- (app_nil_r (flat_map text ps)). rewrite R by discriminate.
  assert (Hg : flat_map gl_of ps <> []).
  { destruct ps as [| p ps]; [now destruct Hn |]. cbn [forallb] in H. apply andb_prop in H as [H _].
    pose proof (gl_of_nonempty kinds p H). cbn. destruct (gl_of p); [congruence | discriminate]. }
  destruct (flat_map gl_of ps); [now destruct Hg | reflexivity].
Qed.

(** ** Reading the regular expression *)
Fixpoint tr (g : glob) : re :=
  match g with
  | Char c => RChar c
  | AnyChar => RDot
  | AnyText => RRep QStar RDot
  | OneOf n r => RSet n r
  | Ext k alts =>
      let r := RGroup (map (map tr) alts) in
      match k with
      | ExactlyOne => r
      | AtMostOne => RRep QOpt r
      | AnyNumber => RRep QStar r
      | AtLeastOne => RRep QPlus r
      | NoneOf => r
      end
  end.
Definition rpush (cl : list re * option re) (r : re) : list re * option re :=
  match r with
  | RRep _ _ | RBegin | REnd => ((fst cl ++ opt (snd cl)) ++ [r], None)
  | _ => (fst cl ++ opt (snd cl), Some r)
  end.
Definition rall (cl : list re * option re) : list re := fst cl ++ opt (snd cl).
Lemma rall_push cl r : rall (rpush cl r) = rall cl ++ [r].
Proof. unfold rall. destruct r; cbn [rpush fst snd opt]; rewrite ?app_nil_r; reflexivity. Qed.
Lemma rall_fold rs : forall cl, rall (fold_left rpush rs cl) = rall cl ++ rs.
Proof.
  induction rs as [| r rs IH]; intros cl; cbn [fold_left]; [now rewrite app_nil_r |].
  rewrite IH, rall_push, <- app_assoc. reflexivity.
Qed.
Definition rreads (y : str) (rs : list re) : Prop := forall st alts cl rest,
  rread RPlain st alts (fst cl) (snd cl) (y ++ rest) =
  rread RPlain st alts (fst (fold_left rpush rs cl)) (snd (fold_left rpush rs cl)) rest.
Lemma rreads_nil : rreads [] [].
Proof. intros st alts cl rest. reflexivity. Qed.
Lemma rreads_app y1 y2 rs1 rs2 : rreads y1 rs1 -> rreads y2 rs2 -> rreads (y1 ++ y2) (rs1 ++ rs2).
Proof. intros H1 H2 st alts cl rest. rewrite <- app_assoc, H1, H2, fold_left_app. reflexivity. Qed.

Lemma rread_plain st alts cur last c x' : rread RPlain st alts cur last (c :: x') =
          match quantifier_of c with
          | Some q =>
              match last with
              | Some r => rread RPlain st alts (cur ++ [RRep q r]) None x'
              | None => None
              end
          | None =>
              if N.eqb c BS then rread REsc st alts cur last x'
              else if N.eqb c DOT then rread RPlain st alts (cur ++ opt last) (Some RDot) x'
              else if N.eqb c CARET then rread RPlain st alts (cur ++ opt last ++ [RBegin]) None x'
              else if N.eqb c DOLLAR then rread RPlain st alts (cur ++ opt last ++ [REnd]) None x'
              else if N.eqb c LBRK then rread (RIn (MkBracket false [] None false true)) st alts cur last x'
              else if N.eqb c LPAR then
                rread RPlain ((alts, cur ++ opt last) :: st) [] [] None x'
              else if N.eqb c PIPE then rread RPlain st (alts ++ [cur ++ opt last]) [] None x'
              else if N.eqb c RPAR then
                match st with
                | [] => None
                | (alts0, cur0) :: st' =>
                    rread RPlain st' alts0 cur0 (Some (RGroup (alts ++ [cur ++ opt last]))) x'
                end
              else if N.eqb c LBRC then None
              else rread RPlain st alts (cur ++ opt last) (Some (RChar c)) x'
          end.
Proof. reflexivity. Qed.
Lemma rread_in b st alts cur last c x' : rread (RIn b) st alts cur last (c :: x') =
          if b_start b && negb (b_negated b) && N.eqb c CARET
          then rread (RIn (MkBracket true [] None false true)) st alts cur last x'
          else if N.eqb c RBRK && negb (b_start b)
          then rread RPlain st alts (cur ++ opt last) (Some (set_of b)) x'
          else if N.eqb c DASH && negb (b_dash b) && (match b_last b with Some _ => true | None => false end)
          then rread (RIn (MkBracket (b_negated b) (b_items b) (b_last b) true false)) st alts cur last x'
          else if N.eqb c LBRK && (match x' with d :: _ => memc d [COLON; EQ; DOT] | [] => false end)
          then None
          else if N.eqb c BS then rread (RInEsc b) st alts cur last x'
          else if range_ok b c then rread (RIn (bracket_add b c)) st alts cur last x' else None.
Proof. reflexivity. Qed.

Lemma rreads_char c : c <> BS -> c <> CARET -> c <> DOLLAR -> rreads (escape_in literal_escape_chars c) [RChar c].
Proof.
  intros H1 H2 H3 st alts cl rest. unfold escape_in. destruct (memc c literal_escape_chars) eqn:E.
  - cbn [app fold_left rpush fst snd]. rewrite rread_plain. cbn [quantifier_of N.eqb Pos.eqb]. cbn [rread].
    apply memc_In in E. cbn in E. 
    assert (Ew : N.eqb c 100 = false /\ is_word c = false).
    { intuition subst; split; reflexivity. }
    destruct Ew as [-> ->]. reflexivity.
  - apply memc_not_In in E.
    assert (F : forall d, In d [DOT; QM; STAR; PLUS; PIPE; LBRC; RBRC; LBRK; RBRK; LPAR; RPAR] -> N.eqb c d = false).
    { intros d Hd. apply N.eqb_neq. intros ->. now apply E. }
    cbn [app fold_left rpush fst snd]. rewrite rread_plain. unfold quantifier_of.
    rewrite (F STAR), (F PLUS), (F QM), (F DOT), (F LBRK), (F LPAR), (F PIPE), (F RPAR), (F LBRC) by (cbn; tauto).
    rewrite (proj2 (N.eqb_neq c BS) H1), (proj2 (N.eqb_neq c CARET) H2), (proj2 (N.eqb_neq c DOLLAR) H3). reflexivity.
Qed.
Lemma rreads_literal x : (forall c, In c x -> c <> BS /\ c <> CARET /\ c <> DOLLAR) ->
  rreads (literal_to_regex x) (map RChar x).
Proof.
  rewrite literal_flat. induction x as [| c x IH]; intros H; [apply rreads_nil |].
  cbn [flat_map map]. apply (rreads_app _ _ [RChar c]); [| apply IH; intros d Hd; apply H; now right].
  destruct (H c (or_introl eq_refl)) as (H1 & H2 & H3). now apply rreads_char.
Qed.
Lemma rreads_dot : rreads (s ".") [RDot].
Proof. intros st alts cl rest. reflexivity. Qed.
Lemma rreads_dots : rreads (s ".*") [RRep QStar RDot].
Proof. intros st alts cl rest. reflexivity. Qed.

Lemma rreads_join parts : (forall q, In q parts -> rreads (fst q) (snd q)) -> parts <> [] ->
  forall a0 c0 st alts rest,
  rread RPlain ((a0, c0) :: st) alts [] None (join (s "|") (map fst parts) ++ s ")" ++ rest) =
  rread RPlain st a0 c0 (Some (RGroup (alts ++ map snd parts))) rest.
Proof.
  induction parts as [| [y rs] parts IH]; intros H Hn a0 c0 st alts rest; [now destruct Hn |].
  pose proof (H (y, rs) (or_introl eq_refl) ((a0, c0) :: st) alts ([], None)) as R. cbn [fst snd] in R.
  pose proof (rall_fold rs ([], None)) as A. unfold rall in A. cbn [fst snd opt app] in A.
  destruct parts as [| q parts].
  - cbn [map join fst snd]. rewrite R. change (s ")" ++ rest) with (RPAR :: rest). rewrite rread_plain.
    cbn [quantifier_of N.eqb Pos.eqb]. rewrite A. reflexivity.
  - change (map fst ((y, rs) :: q :: parts)) with (y :: map fst (q :: parts)).
    change (map snd ((y, rs) :: q :: parts)) with (rs :: map snd (q :: parts)).
    set (more := q :: parts) in *.
    assert (Ej : join (s "|") (y :: map fst more) = y ++ s "|" ++ join (s "|") (map fst more)) by reflexivity.
    rewrite Ej, <- !app_assoc, R.
    set (z := join (s "|") (map fst more) ++ s ")" ++ rest). change (s "|" ++ z) with (PIPE :: z). rewrite rread_plain.
    cbn [quantifier_of N.eqb Pos.eqb]. rewrite A. unfold z. rewrite IH; [| intros q' Hq; apply H; now right | discriminate].
    now rewrite <- app_assoc.
Qed.
Lemma rreads_group parts q : (forall q, In q parts -> rreads (fst q) (snd q)) -> parts <> [] ->
  let g := RGroup (map snd parts) in
  rreads ((s "(" ++ join (s "|") (map fst parts) ++ s ")") ++ match q with None => [] | Some QStar => s "*" | Some QPlus => s "+" | Some QOpt => s "?" end)
    [match q with None => g | Some q => RRep q g end].
Proof.
  intros H Hn g st alts cl rest. rewrite <- !app_assoc.
  set (z := match q with None => _ | Some _ => _ end).
  change (s "(" ++ join (s "|") (map fst parts) ++ s ")" ++ z ++ rest) with
    (LPAR :: join (s "|") (map fst parts) ++ s ")" ++ z ++ rest). rewrite rread_plain.
  cbn [quantifier_of N.eqb Pos.eqb]. rewrite rreads_join by assumption. fold g.
  destruct q as [[| |] |]; reflexivity.
Qed.

(** *** Brackets *)
Definition pending (b : bracket) : str :=
  match b_last b, b_dash b with
  | Some a, true => [a; DASH]
  | Some a, false => [a]
  | None, _ => []
  end.
Lemma ordered_tail a x : ranges_ordered (a :: x) = true -> ranges_ordered x = true.
Proof. destruct x as [| d [| b x]]; try reflexivity. cbn [ranges_ordered]. intros H. now apply andb_prop in H as [_ H]. Qed.
Lemma pending_add b c x : ranges_ordered (pending b ++ c :: x) = true ->
  range_ok b c = true /\ ranges_ordered (pending (bracket_add b c) ++ x) = true.
Proof.
  unfold pending, range_ok, bracket_add. destruct (b_last b) as [a |]; [destruct (b_dash b) |]; cbn [b_last b_dash app]; intros H.
  - split; [| now do 3 apply ordered_tail in H].
    cbn [ranges_ordered] in H. rewrite N.eqb_refl in H. cbn [negb orb] in H. now apply andb_prop in H as [H _].
  - split; [reflexivity | now apply ordered_tail in H].
  - split; [reflexivity | exact H].
Qed.
Lemma pending_step b c x : ranges_ordered (pending b ++ c :: x) = true -> ranges_ordered (pending (bstep b c) ++ x) = true.
Proof.
  intros H. unfold bstep. destruct (_ && _) eqn:E; [| now apply pending_add].
  apply andb_prop in E as [E El]. apply andb_prop in E as [Ec Ed]. apply N.eqb_eq in Ec. subst c.
  unfold pending in *. cbn [b_last b_dash]. destruct (b_last b) as [a |]; [| discriminate].
  destruct (b_dash b); [discriminate |]. exact H.
Qed.
Lemma set_body st alts cur last chars : (forall c, In c chars -> c <> BS /\ c <> CARET) -> forall b rest,
  ranges_ordered (pending b ++ chars) = true ->
  rread (RIn b) st alts cur last (flat_map (escape_in [DOT; LBRK; RBRK]) chars ++ rest) =
  rread (RIn (fold_left bstep chars b)) st alts cur last rest.
Proof.
  induction chars as [| c chars IH]; intros H b rest Ho; [reflexivity |].
  pose proof (pending_add b c chars Ho) as [Hr _]. pose proof (pending_step b c chars Ho) as Ho'.
  destruct (H c (or_introl eq_refl)) as [H1 H2]. cbn [flat_map fold_left]. rewrite <- app_assoc.
  rewrite <- IH; [| intros d Hd; apply H; now right | exact Ho'].
  unfold escape_in at 1. destruct (memc c [DOT; LBRK; RBRK]) eqn:E.
  - cbn [app]. rewrite rread_in. cbn [N.eqb Pos.eqb andb]. rewrite andb_false_r. cbn [rread].
    apply memc_In in E. cbn in E.
    assert (Ew : is_word c = false /\ c <> DASH) by (intuition subst; (reflexivity || discriminate)).
    destruct Ew as [-> Ed]. cbn [andb]. rewrite Hr, bstep_quoted by exact Ed. reflexivity.
  - apply memc_not_In in E. cbn [app]. rewrite rread_in.
    rewrite (proj2 (N.eqb_neq c BS) H1), (proj2 (N.eqb_neq c CARET) H2).
    rewrite (proj2 (N.eqb_neq c RBRK)) by (intros ->; apply E; cbn; tauto).
    rewrite (proj2 (N.eqb_neq c LBRK)) by (intros ->; apply E; cbn; tauto).
    rewrite andb_false_r. cbn [andb]. rewrite Hr. unfold bstep.
    destruct (N.eqb c DASH && negb (b_dash b) && match b_last b with Some _ => true | None => false end); reflexivity.
Qed.
Lemma fold_negated chars : forall b, b_negated (fold_left bstep chars b) = b_negated b.
Proof.
  induction chars as [| c chars IH]; intros b; [reflexivity |]. cbn [fold_left]. rewrite IH. unfold bstep.
  destruct (_ && _); [reflexivity | apply bracket_add_negated].
Qed.
Lemma rreads_bracket kinds n body : piece_ok kinds (Bracket n body) = true ->
  rreads (class_to_regex (flat_map lit_chars body) n) (map tr (gl_of (Bracket n body))).
Proof.
  cbn [piece_ok]. intros H. apply andb_prop in H as [H Hord]. apply andb_prop in H as [H Hdash].
  apply andb_prop in H as [Hne Hok].
  assert (Hb : body <> []) by (destruct body; discriminate).
  assert (Hc : forall c, In c (flat_map lit_chars body) -> c <> BS /\ c <> CARET).
  { intros c Hc. apply in_flat_map in Hc as (l & Hl & Hc). rewrite forallb_forall in Hok.
    destruct (lit_ok_cases l (Hok l Hl)) as (_ & Hno & _). destruct (Hno c Hc) as (? & ? & _). now split. }
  pose proof (bresult_start n (flat_map lit_chars body) (body_chars body Hb Hok)) as Es.
  cbn [gl_of map]. set (chars := flat_map lit_chars body) in *.
  rewrite class_flat; [| intros K; destruct (Hc CARET K); congruence | intros K; destruct (Hc BS K); congruence].
  intros st alts cl rest. rewrite <- !app_assoc.
  transitivity (rread (RIn (MkBracket n [] None false true)) st alts (fst cl) (snd cl)
    (flat_map (escape_in [DOT; LBRK; RBRK]) chars ++ s "]" ++ rest)).
  { set (z := flat_map _ _ ++ _ ++ _). destruct n; [| reflexivity].
    change (s "[" ++ s "^" ++ z) with (LBRK :: CARET :: z). rewrite rread_plain. cbn [quantifier_of N.eqb Pos.eqb].
    rewrite rread_in. reflexivity. }
  rewrite set_body; [| exact Hc | exact Hord]. fold (bresult n chars).
  change (s "]" ++ rest) with (RBRK :: rest). rewrite rread_in. cbn [N.eqb Pos.eqb]. rewrite Es, andb_false_r.
  cbn [andb negb fold_left]. reflexivity.
Qed.

Definition reg_wrap (k : kind) (y : str) : str :=
  match k with ExactlyOne => y | AtMostOne => y ++ s "?" | AnyNumber => y ++ s "*" | AtLeastOne => y ++ s "+" | NoneOf => y end.
Definition reg_conv : piece -> str := conv literal_to_regex class_to_regex (s ".*") (s ".") reg_wrap.
Lemma rreads_pieces ps : forallb (piece_ok reg_kinds) ps = true ->
  (forall p, In p ps -> match p with Group _ _ => rreads (reg_conv p) (map tr (gl_of p)) | _ => True end) ->
  rreads (flat_map reg_conv ps) (map tr (flat_map gl_of ps)).
Proof.
  induction ps as [| p ps IH]; intros Hok Hg; [apply rreads_nil |]. cbn [forallb] in Hok. apply andb_prop in Hok as [Hp Hok].
  cbn [flat_map]. rewrite map_app. apply rreads_app; [| apply IH; [exact Hok | intros q Hq; apply Hg; now right]].
  destruct p as [l | | | n body | k alts].
  - unfold reg_conv. cbn [conv gl_of]. rewrite map_map. cbn [tr]. apply rreads_literal.
    now destruct (lit_ok_cases l Hp) as (_ & Hno & _).
  - apply rreads_dot.
  - apply rreads_dots.
  - exact (rreads_bracket reg_kinds n body Hp).
  - exact (Hg _ (or_introl eq_refl)).
Qed.
Lemma rreads_piece_group p : piece_ok reg_kinds p = true ->
  match p with Group _ _ => rreads (reg_conv p) (map tr (gl_of p)) | _ => True end.
Proof.
  induction p as [| | | |k alts IH] using piece_rect'; intros Hok; try exact I.
  cbn [piece_ok] in Hok. apply andb_prop in Hok as [Hok Hall]. apply andb_prop in Hok as [Hk Hne].
  pose proof (rreads_group (map (fun a => (flat_map reg_conv a, map tr (flat_map gl_of a))) alts)
    (match k with ExactlyOne => None | AtMostOne => Some QOpt | AnyNumber => Some QStar | AtLeastOne => Some QPlus | NoneOf => None end)) as H.
  rewrite !map_map in H. cbn [fst snd] in H.
  unfold reg_conv at 1. cbn [conv gl_of map tr]. rewrite map_map. fold reg_conv.
  assert (K : forall q, In q (map (fun a => (flat_map reg_conv a, map tr (flat_map gl_of a))) alts) -> rreads (fst q) (snd q)).
  { intros q Hq. apply in_map_iff in Hq as (a & <- & Ha). cbn [fst snd]. rewrite forallb_forall in Hall.
    specialize (Hall a Ha). apply rreads_pieces; [exact Hall |]. rewrite forallb_forall in Hall.
    intros p Hp. apply (IH a p Ha Hp). now apply Hall. }
  assert (N : map (fun a => (flat_map reg_conv a, map tr (flat_map gl_of a))) alts <> []) by (destruct alts; discriminate).
  specialize (H K N). destruct k; cbn [reg_wrap] in *; try (rewrite app_nil_r in H; exact H); try exact H; discriminate.
Qed.
Lemma regex_read ps : forallb (piece_ok reg_kinds) ps = true ->
  rreads (flat_map reg_conv ps) (map tr (flat_map gl_of ps)).
Proof.
  intros H. apply rreads_pieces; [exact H |]. rewrite forallb_forall in H. intros p Hp. now apply rreads_piece_group, H.
Qed.
Lemma rreads_whole y rs : rreads y rs -> read_regex y = Some [rs].
Proof.
  intros H. unfold read_regex. rewrite <- (app_nil_r y). specialize (H [] [] ([], None) []). cbn [fst snd] in H. rewrite H.
  cbn [rread]. pose proof (rall_fold rs ([], None)) as A. unfold rall in A. cbn [fst snd opt app] in A. now rewrite A.
Qed.
Lemma regex_translated ps : forallb (piece_ok reg_kinds) ps = true ->
  bash_glob_to_regex (flat_map text ps) = Ok (flat_map reg_conv ps).
Proof.
  intros H. unfold bash_glob_to_regex. apply (translate reg_kinds to_regex literal_to_regex class_to_regex); auto.
  - intros x y. rewrite !literal_flat. apply flat_map_app.
  - intros k alts r Hk E. cbn [to_regex]. rewrite E. cbn [bind]. destruct k; try discriminate; reflexivity.
Qed.

(** ** Meaning *)
Fixpoint no_none (g : glob) : bool :=
  match g with Ext k alts => reg_kinds k && forallb (forallb no_none) alts | _ => true end.
Definition sim (g : glob) : Prop := forall before w after, ~ In LF w -> (rmatch (tr g) before w after <-> matches g w).
Lemma not_in_app {A} (a : A) u v : ~ In a (u ++ v) <-> ~ In a u /\ ~ In a v.
Proof. rewrite in_app_iff. tauto. Qed.
Lemma sim_seq gs : (forall g, In g gs -> sim g) -> forall before w after, ~ In LF w ->
  (rseq_ rmatch (map tr gs) before w after <-> seq_matches_ matches gs w).
Proof.
  induction gs as [| g gs IH]; intros H before w after Hw; [reflexivity |]. cbn [map rseq_ seq_matches_].
  split; intros (u & v & -> & H1 & H2); apply not_in_app in Hw as [Hu Hv]; exists u, v; (split; [reflexivity |]).
  - split; [now apply (H g (or_introl eq_refl)) in H1 |]. apply IH in H2; auto. intros g' Hg'. apply H. now right.
  - split; [now apply (H g (or_introl eq_refl)) |]. apply IH; auto. intros g' Hg'. apply H. now right.
Qed.
Lemma sim_any alts : (forall a g, In a alts -> In g a -> sim g) -> forall before w after, ~ In LF w ->
  (rany_ rmatch (map (map tr) alts) before w after <-> any_matches_ matches alts w).
Proof.
  induction alts as [| a alts IH]; intros H before w after Hw; [reflexivity |]. cbn [map rany_ any_matches_].
  rewrite sim_seq, IH; [reflexivity | | exact Hw | | exact Hw].
  - intros a' g Ha Hg. apply (H a' g); [now right | exact Hg].
  - intros g Hg. apply (H a g); [now left | exact Hg].
Qed.
Lemma sim_star (m : str -> str -> str -> Prop) (P : str -> Prop) :
  (forall before w after, ~ In LF w -> (m before w after <-> P w)) ->
  forall before w after, ~ In LF w -> (rstar m before w after <-> star P w).
Proof.
  intros H before w after Hw. split.
  - intros K. induction K as [| before u v after Hu Hv IH]; [constructor |]. apply not_in_app in Hw as [Hu' Hv'].
    constructor; [now apply H in Hu | now apply IH].
  - intros K. revert before after. induction K as [| u v Hu Hv IH]; intros before after; [constructor |].
    apply not_in_app in Hw as [Hu' Hv']. constructor; [now apply H | now apply IH].
Qed.
Lemma dots before w after : ~ In LF w -> rstar (rmatch RDot) before w after.
Proof.
  revert before. induction w as [| c w IH]; intros before H; [constructor |].
  apply (rstar_app (rmatch RDot) before [c] w after); [| apply IH; cbn in H; tauto].
  exists c. split; [reflexivity |]. intros ->. cbn in H. tauto.
Qed.
Lemma sim_all g : no_none g = true -> sim g.
Proof.
  induction g as [c | | | n r | k alts IH] using glob_rect'; intros Hn before w after Hw.
  - reflexivity.
  - cbn. split; [intros (c & -> & _); now exists c |]. intros (c & ->). exists c. split; [reflexivity |].
    intros ->. cbn in Hw. tauto.
  - cbn [tr rmatch matches]. split; [trivial |]. intros _. now apply dots.
  - reflexivity.
  - cbn [no_none] in Hn. apply andb_prop in Hn as [Hk Hall].
    assert (HA : forall a g, In a alts -> In g a -> sim g).
    { intros a g Ha Hg. apply (IH a g Ha Hg). rewrite forallb_forall in Hall. specialize (Hall a Ha).
      rewrite forallb_forall in Hall. now apply Hall. }
    assert (HG : forall before w after, ~ In LF w -> (rmatch (RGroup (map (map tr) alts)) before w after <-> any_matches_ matches alts w)).
    { intros b' w' a' Hw'. cbn [rmatch]. now apply sim_any. }
    destruct k; cbn [tr matches ext_matches]; [now apply HG | | | | discriminate].
    + change (rmatch (RRep QOpt (RGroup (map (map tr) alts))) before w after) with
        (w = [] \/ rmatch (RGroup (map (map tr) alts)) before w after). now rewrite HG.
    + change (rmatch (RRep QStar (RGroup (map (map tr) alts))) before w after) with
        (rstar (rmatch (RGroup (map (map tr) alts))) before w after). now apply sim_star.
    + change (rmatch (RRep QPlus (RGroup (map (map tr) alts))) before w after) with
        (exists u v, w = u ++ v /\ rmatch (RGroup (map (map tr) alts)) before u (v ++ after) /\
           rstar (rmatch (RGroup (map (map tr) alts))) (before ++ u) v after).
      split; intros (u & v & -> & H1 & H2); apply not_in_app in Hw as [Hu Hv]; exists u, v; (split; [reflexivity |]).
      * split; [now apply HG in H1 |]. revert H2. now apply sim_star.
      * split; [now apply HG |]. revert H2. now apply sim_star.
Qed.
Lemma piece_no_none p : piece_ok reg_kinds p = true -> forallb no_none (gl_of p) = true.
Proof.
  induction p as [l | | | n body |k alts IH] using piece_rect'; intros Hok; try reflexivity.
  - cbn [gl_of]. induction (lit_chars l); [reflexivity | exact IHl0].
  - cbn [piece_ok gl_of forallb no_none] in *. apply andb_prop in Hok as [Hok Hall]. apply andb_prop in Hok as [Hk _].
    rewrite Hk, andb_true_r. cbn [andb]. rewrite forallb_forall. intros gs Hgs. apply in_map_iff in Hgs as (a & <- & Ha).
    rewrite forallb_forall in Hall. specialize (Hall a Ha). rewrite forallb_forall in Hall |- *.
    intros g Hg. apply in_flat_map in Hg as (p & Hp & Hg). specialize (IH a p Ha Hp (Hall p Hp)).
    rewrite forallb_forall in IH. now apply IH.
Qed.
Lemma pieces_sim ps : forallb (piece_ok reg_kinds) ps = true -> forall g, In g (flat_map gl_of ps) -> sim g.
Proof.
  rewrite forallb_forall. intros H g Hg. apply in_flat_map in Hg as (p & Hp & Hg). apply sim_all.
  pose proof (piece_no_none p (H p Hp)) as K. rewrite forallb_forall in K. now apply K.
Qed.
