(** * Proofs: the Zsh patterns that crazy_complete/pattern.py writes. *)
From Verif Require Import Base ShellParser Pattern SpecShell SpecGlob SpecPattern SpecZshGlob BashPatternsProofs
  PatternProofs RegexProofs.
Open Scope list_scope.

Definition zreads (y : str) (gs : list glob) : Prop := forall st alts cur rest,
  zread st alts cur None (y ++ rest) = zread st alts (cur ++ gs) None rest.
Lemma zreads_nil : zreads [] [].
Proof. intros st alts cur rest. now rewrite app_nil_r. Qed.
Lemma zreads_app y1 y2 gs1 gs2 : zreads y1 gs1 -> zreads y2 gs2 -> zreads (y1 ++ y2) (gs1 ++ gs2).
Proof. intros H1 H2 st alts cur rest. rewrite <- app_assoc, H1, H2, app_assoc. reflexivity. Qed.
Lemma zreads_char c : plain c = true -> zreads [c] [Char c].
Proof.
  intros H st alts cur rest. pose proof (plain_facts c H) as F. cbn [app zread memc existsb].
  rewrite (F SQ), (F DQ), (F BS), (F DOLLAR), (F BTICK), (F SP), (F TAB), (F LF), (F QM), (F STAR), (F LBRK), (F LPAR), (F PIPE), (F RPAR),
    (F HASH), (F TILDE), (F CARET), (F LT), (F GT), (F AMP), (F SEMI), (F RBRK) by (clear; cbn; tauto). reflexivity.
Qed.
Lemma zreads_chars x : forallb plain x = true -> zreads x (map Char x).
Proof.
  induction x as [| c x IH]; intros H; [apply zreads_nil |]. cbn [forallb] in H. apply andb_prop in H as [Hc H].
  exact (zreads_app [c] x [Char c] (map Char x) (zreads_char c Hc) (IH H)).
Qed.
Lemma zreads_join parts : (forall q, In q parts -> zreads (fst q) (snd q)) -> parts <> [] ->
  forall a0 c0 st alts rest,
  zread ((a0, c0) :: st) alts [] None (join (s "|") (map fst parts) ++ s ")" ++ rest) =
  zread st a0 (c0 ++ [Ext ExactlyOne (alts ++ map snd parts)]) None rest.
Proof.
  induction parts as [| [y gs] parts IH]; intros H Hn a0 c0 st alts rest; [now destruct Hn |].
  pose proof (H (y, gs) (or_introl eq_refl)) as R. cbn [fst snd] in R.
  destruct parts as [| q parts].
  - cbn [map join fst snd]. rewrite R. reflexivity.
  - change (map fst ((y, gs) :: q :: parts)) with (y :: map fst (q :: parts)).
    change (map snd ((y, gs) :: q :: parts)) with (gs :: map snd (q :: parts)).
    set (more := q :: parts) in *.
    assert (Ej : join (s "|") (y :: map fst more) = y ++ s "|" ++ join (s "|") (map fst more)) by reflexivity.
    rewrite Ej, <- !app_assoc, R.
    set (z := join (s "|") (map fst more) ++ s ")" ++ rest). change (s "|" ++ z) with (PIPE :: z). cbn -[z].
    unfold z. rewrite IH; [| intros q' Hq; apply H; now right | discriminate].
    now rewrite <- app_assoc.
Qed.
Lemma zreads_group parts : (forall q, In q parts -> zreads (fst q) (snd q)) -> parts <> [] ->
  zreads (s "(" ++ join (s "|") (map fst parts) ++ s ")") [Ext ExactlyOne (map snd parts)].
Proof.
  intros H Hn st alts cur rest. rewrite <- !app_assoc.
  change (s "(" ++ join (s "|") (map fst parts) ++ s ")" ++ rest) with (LPAR :: join (s "|") (map fst parts) ++ s ")" ++ rest).
  transitivity (zread ((alts, cur) :: st) [] [] None (join (s "|") (map fst parts) ++ s ")" ++ rest)); [reflexivity |].
  now rewrite zreads_join.
Qed.
Lemma zbracket_step st alts cur b c x : plain c = true ->
  zread st alts cur (Some b) (c :: x) = zread st alts cur (Some (bstep b c)) x.
Proof.
  intros H. pose proof (plain_facts c H) as F. cbn [zread memc existsb].
  rewrite (F SQ), (F DQ), (F BS), (F DOLLAR), (F BTICK), (F SP), (F TAB), (F LF), (F BANG), (F CARET), (F RBRK), (F LBRK) by (clear; cbn; tauto).
  cbn [orb andb]. rewrite andb_false_r. unfold bstep.
  destruct (N.eqb c DASH && negb (b_dash b) && match b_last b with Some _ => true | None => false end); reflexivity.
Qed.
Lemma zbody st alts cur chars : forallb plain chars = true -> forall b rest,
  zread st alts cur (Some b) (chars ++ rest) = zread st alts cur (Some (fold_left bstep chars b)) rest.
Proof.
  induction chars as [| c chars IH]; intros H b rest; [reflexivity |]. cbn [forallb] in H. apply andb_prop in H as [Hc H].
  cbn [app fold_left]. rewrite zbracket_step by exact Hc. now apply IH.
Qed.
Lemma literal_zsh_plain x : forallb plain x = true -> literal_to_zsh x = x.
Proof.
  unfold literal_to_zsh. induction x as [| c x IH]; intros H; [reflexivity |]. cbn [forallb] in H. apply andb_prop in H as [Hc H].
  pose proof (plain_facts c Hc) as F. cbn [flat_map memc existsb].
  rewrite (F LBRK), (F RBRK), (F QM), (F STAR), (F DQ), (F SP), (F BS), (F SQ) by (clear; cbn; tauto).
  cbn [orb app]. f_equal. exact (IH H).
Qed.
Lemma class_zsh_plain x n : forallb plain x = true -> class_to_zsh x n = s "[" ++ (if n then s "!" else []) ++ x ++ s "]".
Proof.
  intros H. unfold class_to_zsh.
  assert (E : flat_map (fun c => if memc c [LBRK; RBRK; BANG] then [SQ; c; SQ] else [c]) x = x).
  { induction x as [| c x IH]; [reflexivity |]. cbn [forallb] in H. apply andb_prop in H as [Hc H].
    pose proof (plain_facts c Hc) as F. cbn [flat_map memc existsb].
    rewrite (F LBRK), (F RBRK), (F BANG) by (clear; cbn; tauto). cbn [orb app]. f_equal. exact (IH H). }
  rewrite E. destruct n; reflexivity.
Qed.

Definition zsh_conv : piece -> str := conv literal_to_zsh class_to_zsh (s "*") (s "?") (fun _ y => y).
Lemma zreads_bracket n body : piece_ok zsh_kinds (Bracket n body) = true -> unquoted_ok (Bracket n body) = true ->
  zreads (class_to_zsh (flat_map lit_chars body) n) (gl_of (Bracket n body)).
Proof.
  cbn [piece_ok unquoted_ok gl_of]. intros H Hu. apply andb_prop in H as [H _]. apply andb_prop in H as [H _].
  apply andb_prop in H as [Hne Hok].
  pose proof (bresult_start n (flat_map lit_chars body) (body_chars body ltac:(destruct body; discriminate) Hok)) as Es.
  set (chars := flat_map lit_chars body) in *. rewrite class_zsh_plain by exact Hu.
  intros st alts cur rest. rewrite <- !app_assoc.
  transitivity (zread st alts cur (Some (MkBracket n [] None false true)) (chars ++ s "]" ++ rest)).
  { destruct n; reflexivity. }
  rewrite zbody by exact Hu. fold (bresult n chars). set (b := bresult n chars) in *. change (s "]" ++ rest) with (RBRK :: rest).
  cbn -[b bracket_close]. rewrite Es. cbn [andb negb]. reflexivity.
Qed.
Lemma zreads_pieces ps : forallb (piece_ok zsh_kinds) ps = true -> forallb unquoted_ok ps = true ->
  (forall p, In p ps -> match p with Group _ _ => zreads (zsh_conv p) (gl_of p) | _ => True end) ->
  zreads (flat_map zsh_conv ps) (flat_map gl_of ps).
Proof.
  induction ps as [| p ps IH]; intros Hok Hu Hg; [apply zreads_nil |]. cbn [forallb] in Hok, Hu. apply andb_prop in Hok as [Hp Hok].
  apply andb_prop in Hu as [Hup Hu].
  cbn [flat_map]. apply zreads_app; [| apply IH; [exact Hok | exact Hu | intros q Hq; apply Hg; now right]].
  destruct p as [l | | | n body | k alts].
  - unfold zsh_conv. cbn [conv gl_of unquoted_ok] in *. rewrite literal_zsh_plain by exact Hup. now apply zreads_chars.
  - intros st alts cur rest. reflexivity.
  - intros st alts cur rest. reflexivity.
  - exact (zreads_bracket n body Hp Hup).
  - exact (Hg _ (or_introl eq_refl)).
Qed.
Lemma zreads_piece_group p : piece_ok zsh_kinds p = true -> unquoted_ok p = true ->
  match p with Group _ _ => zreads (zsh_conv p) (gl_of p) | _ => True end.
Proof.
  induction p as [| | | |k alts IH] using piece_rect'; intros Hok Hu; try exact I.
  cbn [piece_ok] in Hok. apply andb_prop in Hok as [Hok Hall]. apply andb_prop in Hok as [Hk Hne].
  destruct k; try discriminate.
  pose proof (zreads_group (map (fun a => (flat_map zsh_conv a, flat_map gl_of a)) alts)) as H.
  rewrite !map_map in H. cbn [fst snd] in H.
  unfold zsh_conv at 1. cbn [conv gl_of]. fold zsh_conv. apply H; [| destruct alts; discriminate].
  intros q Hq. apply in_map_iff in Hq as (a & <- & Ha). cbn [fst snd]. rewrite forallb_forall in Hall.
  cbn [unquoted_ok] in Hu. rewrite forallb_forall in Hu.
  specialize (Hall a Ha). specialize (Hu a Ha). apply zreads_pieces; [exact Hall | exact Hu |].
  rewrite forallb_forall in Hall, Hu. intros p Hp. apply (IH a p Ha Hp); auto.
Qed.
Lemma zsh_read ps : forallb (piece_ok zsh_kinds) ps = true -> forallb unquoted_ok ps = true ->
  zread [] [] [] None (flat_map zsh_conv ps) = Some (flat_map gl_of ps).
Proof.
  intros H Hu. rewrite <- (app_nil_r (flat_map zsh_conv ps)).
  rewrite (zreads_pieces ps H Hu); [reflexivity |].
  rewrite forallb_forall in H, Hu. intros p Hp. apply zreads_piece_group; auto.
Qed.
Lemma zsh_translated ps : forallb (piece_ok zsh_kinds) ps = true ->
  bash_glob_to_zsh_glob (flat_map text ps) = Ok (flat_map zsh_conv ps).
Proof.
  intros H. unfold bash_glob_to_zsh_glob.
  apply (translate zsh_kinds to_zsh_glob literal_to_zsh class_to_zsh (s "*") (s "?") (fun _ y => y)); auto.
  - intros x y. apply flat_map_app.
  - intros k alts r Hk E. cbn [to_zsh_glob]. rewrite E. cbn [bind]. destruct k; try discriminate; reflexivity.
Qed.
