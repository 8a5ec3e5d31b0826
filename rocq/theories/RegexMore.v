(** * Proofs: what the file filters of the Fish scripts select and remove. *)
From Verif Require Import Base ShellParser Pattern SpecShell SpecGlob SpecRegex SpecPattern BashPatternsProofs GlobMatch
  PatternProofs RegexProofs BashUtils PatternMore FishFiles.
Open Scope list_scope.

Lemma rreads_begin : rreads (s "^") [RBegin].
Proof. intros st alts cl rest. cbn [fold_left rpush fst snd]. rewrite <- app_assoc. reflexivity. Qed.
Lemma rreads_end : rreads (s "$") [REnd].
Proof. intros st alts cl rest. cbn [fold_left rpush fst snd]. rewrite <- app_assoc. reflexivity. Qed.
Lemma rreads_slash : rreads (s "/") [RChar SLASH].
Proof. intros st alts cl rest. reflexivity. Qed.
Lemma rreads_one_group y rs : rreads y rs -> rreads (s "(" ++ y ++ s ")") [RGroup [rs]].
Proof.
  intros H. pose proof (rreads_group [(y, rs)] None) as G. cbn [map join fst snd] in G. rewrite app_nil_r in G.
  apply G; [| discriminate]. intros q [<- | []]. exact H.
Qed.
Lemma rreads_alternatives parts : (forall q, In q parts -> rreads (fst q) (snd q)) -> parts <> [] ->
  rreads (s "(" ++ join (s "|") (map fst parts) ++ s ")") [RGroup (map snd parts)].
Proof. intros H Hn. pose proof (rreads_group parts None H Hn) as G. rewrite app_nil_r in G. exact G. Qed.
Lemma rany_iff m alts before w after : rany_ m alts before w after <-> exists a, In a alts /\ rseq_ m a before w after.
Proof.
  induction alts as [| a alts IH]; cbn [rany_ In].
  - split; [intros [] | intros (a & [] & _)].
  - rewrite IH. split.
    + intros [H | (a' & Hi & H)]; [exists a; auto | exists a'; auto].
    + intros (a' & [-> | Hi] & H); [now left | right; exists a'; auto].
Qed.
Lemma rseq_one r before w after : rseq_ rmatch [r] before w after <-> rmatch r before w after.
Proof.
  cbn [rseq_]. split.
  - intros (u & v & -> & H & ->). now rewrite app_nil_r.
  - intros H. exists w, []. rewrite app_nil_r. auto.
Qed.
Lemma rmatch_group1 rs before w after : rmatch (RGroup [rs]) before w after <-> rseq_ rmatch rs before w after.
Proof. cbn [rmatch rany_]. tauto. Qed.

(** ** Files that are removed *)
Lemma ignore_translated pss : forallb (forallb (piece_ok reg_kinds)) pss = true ->
  ignore_regex (map pattern_text pss) = Ok (join (s "|") (map (fun ps => s "(" ++ flat_map reg_conv ps ++ s ")") pss)).
Proof.
  intros H. unfold ignore_regex.
  assert (E : map_res bash_glob_to_regex (map pattern_text pss) = Ok (map (flat_map reg_conv) pss)).
  { induction pss as [| ps pss IH]; [reflexivity |]. cbn [map map_res forallb] in *. apply andb_prop in H as [H1 H2].
    unfold pattern_text at 1. rewrite (regex_translated ps H1). cbn [bind]. rewrite (IH H2). reflexivity. }
  rewrite E. cbn [bind]. now rewrite map_map.
Qed.
Lemma remove_found parts path : (forall q, In q parts -> rreads (fst q) (snd q)) -> parts <> [] -> ~ In LF path ->
  (regex_found (remove_regex (join (s "|") (map (fun q => s "(" ++ fst q ++ s ")") parts))) path <->
   exists q before u v, In q parts /\ path = u ++ v /\ directory u /\ before = u /\ rseq_ rmatch (snd q) before v []).
Proof.
  intros H Hn Hlf. unfold remove_regex, regex_found.
  set (parts' := map (fun q => (s "(" ++ fst q ++ s ")", [RGroup [snd q]])) parts).
  assert (R2 : rreads (s "(" ++ join (s "|") (map (fun q => s "(" ++ fst q ++ s ")") parts) ++ s ")") [RGroup (map snd parts')]).
  { assert (Ef : map (fun q => s "(" ++ fst q ++ s ")") parts = map fst parts') by (unfold parts'; rewrite map_map; reflexivity).
    rewrite Ef. apply rreads_alternatives.
    - intros q Hq. apply in_map_iff in Hq as (q' & <- & Hq'). cbn [fst snd]. now apply rreads_one_group, H.
    - unfold parts'. destruct parts; [now destruct Hn | discriminate]. }
  assert (R1 : rreads (s "(^|.*/)") [RGroup [[RBegin]; [RRep QStar RDot; RChar SLASH]]]).
  { pose proof (rreads_alternatives [(s "^", [RBegin]); (s ".*/", [RRep QStar RDot; RChar SLASH])]) as G.
    apply G; [| discriminate]. intros q [<- | [<- | []]]; cbn [fst snd]; [apply rreads_begin |].
    apply (rreads_app (s ".*") (s "/") [RRep QStar RDot] [RChar SLASH] rreads_dots rreads_slash). }
  pose proof (rreads_app _ _ _ _ R1 (rreads_app _ _ _ _ R2 rreads_end)) as R.
  set (arg := join (s "|") (map (fun q => s "(" ++ fst q ++ s ")") parts)) in *.
  assert (Et : s "(^|.*/)(" ++ arg ++ s ")$" = s "(^|.*/)" ++ (s "(" ++ arg ++ s ")") ++ s "$").
  { change (s "(^|.*/)(") with (s "(^|.*/)" ++ s "("). change (s ")$") with (s ")" ++ s "$"). now rewrite !app_assoc. }
  rewrite Et. pose proof (rreads_whole _ _ R) as W. rewrite W. clear W R R1 R2.
  split.
  - intros (alts & before & u & after & E & -> & Hm). injection E as <-. cbn [app] in Hm.
    apply rany_iff in Hm as (a & [<- | []] & Hm). destruct Hm as (u1 & u2 & -> & H1 & u3 & u4 & -> & H2 & H3).
    apply rseq_one in H3. destruct H3 as [-> Hend].
    assert (after = []) as ->.
    { destruct Hend as [-> | ->]; [reflexivity |]. exfalso. apply Hlf. rewrite !in_app_iff. cbn. tauto. }
    cbn [app] in *. rewrite !app_nil_r in *.
    cbn [rmatch] in H2. apply rany_iff in H2 as (a & Ha & H2). apply in_map_iff in Ha as (q' & <- & Hq').
    apply in_map_iff in Hq' as (q & <- & Hq). cbn [snd] in H2. apply rseq_one, rmatch_group1 in H2.
    exists q, (before ++ u1), (before ++ u1), u3. split; [exact Hq |]. rewrite !app_assoc, ?app_nil_r. split; [reflexivity |].
    split; [| split; [reflexivity | now rewrite ?app_nil_r in H2]].
    apply rany_iff in H1 as (a & [<- | [<- | []]] & H1).
    + apply rseq_one in H1. destruct H1 as [-> ->]. now left.
    + right. destruct H1 as (d & e & -> & _ & He). apply rseq_one in He. cbn [rmatch] in He. subst e.
      exists (before ++ d). now rewrite app_assoc.
  - intros (q & before & u & v & Hq & -> & Hd & -> & Hm). exists [[RGroup [[RBegin]; [RRep QStar RDot; RChar SLASH]]; RGroup (map snd parts'); REnd]].
    exists [], (u ++ v), []. split; [reflexivity |]. split; [now rewrite app_nil_r |].
    apply rany_iff. eexists. split; [now left |]. exists u, v. split; [reflexivity |]. split.
    + cbn [rmatch]. apply rany_iff. destruct Hd as [-> | (u' & ->)].
      * exists [RBegin]. split; [now left |]. apply rseq_one. now split.
      * exists [RRep QStar RDot; RChar SLASH]. split; [right; now left |]. exists u', (s "/"). split; [reflexivity |]. split.
        -- apply dots. intros K. apply Hlf. rewrite !in_app_iff. tauto.
        -- apply rseq_one. reflexivity.
    + exists v, []. split; [now rewrite app_nil_r |]. split.
      * cbn [rmatch]. apply rany_iff. exists [RGroup [snd q]]. split.
        -- apply in_map_iff. exists (s "(" ++ fst q ++ s ")", [RGroup [snd q]]). split; [reflexivity |].
           apply in_map_iff. exists q. now split.
        -- apply rseq_one, rmatch_group1. cbn [app]. exact Hm.
      * apply rseq_one. split; [reflexivity | now left].
Qed.
Lemma removed pss path : pss <> [] -> forallb (forallb (piece_ok reg_kinds)) pss = true -> (forall ps, In ps pss -> ps <> []) -> ~ In LF path ->
  exists arg, ignore_regex (map pattern_text pss) = Ok arg /\
  (regex_found (remove_regex arg) path <->
   exists ps u v, In ps pss /\ path = u ++ v /\ directory u /\ glob_matches (pattern_text ps) v).
Proof.
  intros Hn Hok Hne Hlf. eexists. split; [now apply ignore_translated |].
  set (parts := map (fun ps => (flat_map reg_conv ps, map tr (flat_map gl_of ps))) pss).
  assert (E : map (fun ps => s "(" ++ flat_map reg_conv ps ++ s ")") pss = map (fun q => s "(" ++ fst q ++ s ")") parts).
  { unfold parts. rewrite map_map. reflexivity. }
  rewrite E. rewrite forallb_forall in Hok. rewrite remove_found; [| | | exact Hlf].
  - split.
    + intros (q & before & u & v & Hq & -> & Hd & -> & Hm). apply in_map_iff in Hq as (ps & <- & Hps). cbn [snd] in Hm.
      apply not_in_app in Hlf as [_ Hv]. exists ps, u, v. split; [exact Hps |]. split; [reflexivity |]. split; [exact Hd |].
      exists (flat_map gl_of ps). split; [apply (pattern_read reg_kinds); auto |].
      apply (sim_seq _ (pieces_sim ps (Hok ps Hps)) u v [] Hv). exact Hm.
    + intros (ps & u & v & Hps & -> & Hd & gs & Hr & Hm). unfold pattern_text in Hr.
      rewrite (pattern_read reg_kinds ps (Hne ps Hps) (Hok ps Hps)) in Hr. injection Hr as <-.
      apply not_in_app in Hlf as [_ Hv]. exists (flat_map reg_conv ps, map tr (flat_map gl_of ps)), u, u, v.
      split; [apply in_map_iff; exists ps; now split |]. split; [reflexivity |]. split; [exact Hd |]. split; [reflexivity |].
      apply (sim_seq _ (pieces_sim ps (Hok ps Hps)) u v [] Hv). exact Hm.
  - intros q Hq. apply in_map_iff in Hq as (ps & <- & Hps). cbn [fst snd]. now apply regex_read, Hok.
  - unfold parts. destruct pss; [now destruct Hn | discriminate].
Qed.

(** ** Files that are selected *)
Lemma rreads_set a b : is_alpha a = true -> is_alpha b = true -> rreads (s "[" ++ [a; b] ++ s "]") [RSet false [(a, a); (b, b)]].
Proof.
  intros Ha Hb st alts cl rest.
  assert (F : forall c, is_alpha c = true -> forall d, In d [CARET; RBRK; DASH; LBRK; BS] -> N.eqb c d = false).
  { intros c Hc d Hd. apply letter_facts in Hc. cbn in Hd. apply N.eqb_neq. intuition lia. }
  change ((s "[" ++ [a; b] ++ s "]") ++ rest) with (LBRK :: a :: b :: RBRK :: rest).
  rewrite rread_plain. cbn [quantifier_of N.eqb Pos.eqb].
  rewrite rread_in. rewrite !(F a Ha) by (cbn; tauto). cbn [b_start b_negated b_dash b_last negb andb].
  change (range_ok (MkBracket false [] None false true) a) with true. cbv iota.
  change (bracket_add (MkBracket false [] None false true) a) with (MkBracket false [] (Some a) false false).
  rewrite rread_in. rewrite !(F b Hb) by (cbn; tauto). cbn [b_start b_negated b_dash b_last negb andb].
  change (range_ok (MkBracket false [] (Some a) false false) b) with true. cbv iota.
  change (bracket_add (MkBracket false [] (Some a) false false) b) with (MkBracket false [(a, a)] (Some b) false false).
  rewrite rread_in. cbn [N.eqb Pos.eqb b_start negb andb]. reflexivity.
Qed.
Lemma rreads_ext x : forallb plain x = true -> rreads (extension_regex x) (map tr (extension_globs x)).
Proof.
  unfold extension_regex, extension_globs. induction x as [| c x IH]; intros H; [apply rreads_nil |].
  cbn [forallb] in H. apply andb_prop in H as [Hc H]. cbn [flat_map map]. 
  apply (rreads_app _ _ [tr (if is_alpha c then OneOf false [(lower_c c, lower_c c); (upper_c c, upper_c c)] else Char c)]); [| now apply IH].
  destruct (is_alpha c) eqn:E; cbn [tr].
  - destruct (upper_alpha c E) as [H1 H2]. now apply rreads_set.
  - pose proof (plain_facts c Hc) as F.
    pose proof (rreads_char c) as K. unfold escape_in in K.
    assert (Em : memc c literal_escape_chars = memc c [DOT; PLUS]).
    { unfold literal_escape_chars. cbn [memc existsb s Ascii.N_of_ascii].
      change (N.eqb c 46 || (N.eqb c QM || (N.eqb c STAR || (N.eqb c PLUS || (N.eqb c PIPE || (N.eqb c LBRC || (N.eqb c RBRC || (N.eqb c LBRK || (N.eqb c RBRK || (N.eqb c LPAR || (N.eqb c RPAR || false)))))))))) = N.eqb c DOT || (N.eqb c PLUS || false)).
      rewrite (F QM), (F STAR), (F PIPE), (F LBRC), (F RBRC), (F LBRK), (F RBRK), (F LPAR), (F RPAR) by (clear; cbn; tauto). reflexivity. }
    rewrite Em in K. apply K.
    all: intros ->; discriminate.
Qed.
Lemma ext_sim x : forall g, In g (extension_globs x) -> sim g.
Proof.
  intros g Hg. apply sim_all. unfold extension_globs in Hg. apply in_map_iff in Hg as (c & <- & _).
  destruct (is_alpha c); reflexivity.
Qed.
Lemma rreads_or y1 y2 rs1 rs2 : rreads y1 rs1 -> rreads y2 rs2 -> read_regex (y1 ++ s "|" ++ y2) = Some [rs1; rs2].
Proof.
  intros H1 H2. unfold read_regex. specialize (H1 [] [] ([], None)). cbn [fst snd] in H1. rewrite H1.
  pose proof (rall_fold rs1 ([], None)) as A1. pose proof (rall_fold rs2 ([], None)) as A2. unfold rall in A1, A2. cbn [fst snd opt app] in A1, A2.
  change (s "|" ++ y2) with (PIPE :: y2). rewrite rread_plain. cbn [quantifier_of N.eqb Pos.eqb]. rewrite A1.
  rewrite <- (app_nil_r y2) at 1. specialize (H2 [] ([] ++ [rs1]) ([], None) []). cbn [fst snd] in H2. rewrite H2. cbn [rread].
  rewrite A2. reflexivity.
Qed.
Definition ext_res (fuzzy : bool) (x : str) : list re :=
  [RRep QStar RDot; RChar DOT] ++ map tr (extension_globs x) ++ (if fuzzy then [RRep QStar RDot] else []).
Lemma rreads_ext_res (fuzzy : bool) x : forallb plain x = true ->
  rreads (s "(.*\." ++ (extension_regex x ++ if fuzzy then s ".*" else []) ++ s ")") [RGroup [ext_res fuzzy x]].
Proof.
  intros H. change (s "(.*\.") with (s "(" ++ s ".*\."). rewrite <- app_assoc, (app_assoc (s ".*\.")).
  apply rreads_one_group. unfold ext_res. apply rreads_app; [| apply rreads_app].
  - apply (rreads_app (s ".*") (s "\.") [RRep QStar RDot] [RChar DOT] rreads_dots).
    apply (rreads_char DOT); discriminate.
  - now apply rreads_ext.
  - destruct fuzzy; [apply rreads_dots | apply rreads_nil].
Qed.
Lemma rseq_app rs1 : forall rs2 before w after, rseq_ rmatch (rs1 ++ rs2) before w after <->
  exists u v, w = u ++ v /\ rseq_ rmatch rs1 before u (v ++ after) /\ rseq_ rmatch rs2 (before ++ u) v after.
Proof.
  induction rs1 as [| r rs1 IH]; intros rs2 before w after; cbn [app rseq_].
  - split; [intros H; exists [], w; rewrite app_nil_r; auto | intros (u & v & -> & -> & H); rewrite app_nil_r in H; exact H].
  - split.
    + intros (u & v & -> & Hr & H). apply IH in H as (u2 & v2 & -> & H1 & H2). exists (u ++ u2), v2.
      rewrite <- !app_assoc in *. split; [reflexivity |]. split; [| exact H2].
      exists u, u2. split; [reflexivity |]. split; [exact Hr | exact H1].
    + intros (u & v & -> & (u1 & u2 & -> & Hr & H1) & H2). exists u1, (u2 ++ v). rewrite <- !app_assoc in *.
      split; [reflexivity |]. split; [exact Hr |]. apply IH. exists u2, v. rewrite <- !app_assoc. auto.
Qed.
Lemma ext_res_iff fuzzy x before w after : ~ In LF w ->
  (rseq_ rmatch (ext_res fuzzy x) before w after <->
   exists u v t, w = u ++ s "." ++ v ++ t /\ lower v = lower x /\ (fuzzy = true \/ t = [])).
Proof.
  intros Hlf. unfold ext_res. split.
  - intros H. apply rseq_app in H as (d & v & -> & H1 & H2). apply rseq_app in H2 as (v1 & t & -> & H2 & H3).
    destruct H1 as (u & e & -> & _ & He). apply rseq_one in He. cbn [rmatch] in He. subst e.
    exists u, v1, t. rewrite <- app_assoc. split; [reflexivity |]. rewrite !not_in_app in Hlf. split.
    + apply extension_matches. now apply (sim_seq _ (ext_sim x)) in H2.
    + destruct fuzzy; [now left | right; exact H3].
  - intros (u & v & t & -> & Hv & Ht). rewrite !not_in_app in Hlf. destruct Hlf as (Hu & _ & Hv' & Ht').
    apply rseq_app. exists (u ++ s "."), (v ++ t). rewrite <- app_assoc. split; [reflexivity |]. split.
    + exists u, (s "."). split; [reflexivity |]. split; [now apply dots |]. now apply rseq_one.
    + apply rseq_app. exists v, t. split; [reflexivity |]. split.
      * apply (sim_seq _ (ext_sim x)); [exact Hv' |]. now apply extension_matches.
      * destruct fuzzy; [apply rseq_one; now apply dots |]. destruct Ht as [? | ->]; [discriminate | reflexivity].
Qed.
Lemma selected exts fuzzy path : exts <> [] -> (forall x, In x exts -> forallb plain x = true) -> ~ In LF path ->
  (regex_found (select_regex (get_extension_regex exts fuzzy)) path <->
   (exists u, path = u ++ s "/") \/
   exists x u v t, In x exts /\ path = u ++ s "." ++ v ++ t /\ lower v = lower x /\ (fuzzy = true \/ t = [])).
Proof.
  intros Hn Hp Hlf. unfold select_regex, get_extension_regex.
  set (parts := map (fun x => (s "(.*\." ++ (extension_regex x ++ if fuzzy then s ".*" else []) ++ s ")", [RGroup [ext_res fuzzy x]])) exts).
  assert (Ef : map (fun extension => s "(.*\." ++ (extension_regex extension ++ (if fuzzy then s ".*" else [])) ++ s ")") exts = map fst parts)
    by (unfold parts; rewrite map_map; reflexivity).
  rewrite Ef.
  assert (R2 : rreads (s "(" ++ join (s "|") (map fst parts) ++ s ")") [RGroup (map snd parts)]).
  { apply rreads_alternatives; [| unfold parts; destruct exts; [now destruct Hn | discriminate]].
    intros q Hq. apply in_map_iff in Hq as (x & <- & Hx). cbn [fst snd]. now apply rreads_ext_res, Hp. }
  assert (R1 : rreads (s "(.*/$)") [RGroup [[RRep QStar RDot; RChar SLASH; REnd]]]).
  { apply (rreads_one_group (s ".*/$")).
    apply (rreads_app (s ".*") (s "/$") [RRep QStar RDot] [RChar SLASH; REnd] rreads_dots).
    apply (rreads_app (s "/") (s "$") [RChar SLASH] [REnd] rreads_slash rreads_end). }
  pose proof (rreads_or _ _ _ _ R1 (rreads_app _ _ _ _ R2 rreads_end)) as W.
  assert (Et : s "(.*/$)|(" ++ join (s "|") (map fst parts) ++ s ")$" = s "(.*/$)" ++ s "|" ++ (s "(" ++ join (s "|") (map fst parts) ++ s ")") ++ s "$").
  { change (s "(.*/$)|(") with (s "(.*/$)" ++ s "|" ++ s "("). change (s ")$") with (s ")" ++ s "$"). now rewrite !app_assoc. }
  unfold regex_found. rewrite Et, W. clear W Et R1 R2 Ef. split.
  - intros (alts & before & u & after & E & -> & Hm). injection E as <-. rewrite !not_in_app in Hlf. destruct Hlf as (Hb & Hu & Ha).
    apply rany_iff in Hm as (a & [<- | [<- | []]] & Hm).
    + left. apply rseq_one, rmatch_group1 in Hm. destruct Hm as (d & e & -> & _ & He). destruct He as (e1 & e2 & -> & He1 & He2).
      cbn [rmatch] in He1. subst e1. apply rseq_one in He2. destruct He2 as [-> Hend].
      assert (after = []) as -> by (destruct Hend as [-> | ->]; [reflexivity | exfalso; apply Ha; now left]).
      exists (before ++ d). now rewrite !app_nil_r, app_assoc.
    + right. destruct Hm as (d & e & -> & Hd & He). apply rseq_one in He. destruct He as [-> Hend].
      assert (after = []) as -> by (destruct Hend as [-> | ->]; [reflexivity | exfalso; apply Ha; now left]).
      cbn [rmatch] in Hd. apply rany_iff in Hd as (a & Hin & Hd). apply in_map_iff in Hin as (q & <- & Hq).
      apply in_map_iff in Hq as (x & <- & Hx). cbn [snd] in Hd. apply rseq_one, rmatch_group1 in Hd.
      rewrite !not_in_app in Hu. apply ext_res_iff in Hd; [| tauto]. destruct Hd as (u & v & t & -> & Hv & Ht).
      exists x, (before ++ u), v, t. split; [exact Hx |]. rewrite !app_nil_r, <- !app_assoc. auto.
  - intros H.
    exists [[RGroup [[RRep QStar RDot; RChar SLASH; REnd]]]; [RGroup (map snd parts)] ++ [REnd]], [], path, [].
    split; [reflexivity |]. split; [now rewrite app_nil_r |]. apply rany_iff. destruct H as [(u & ->) | (x & u & v & t & Hx & -> & Hv & Ht)].
    + eexists. split; [now left |]. apply rseq_one, rmatch_group1. rewrite not_in_app in Hlf. exists u, (s "/"). split; [reflexivity |].
      split; [now apply dots |]. exists (s "/"), []. split; [reflexivity |]. split; [reflexivity |].
      apply rseq_one. split; [reflexivity | now left].
    + eexists. split; [right; now left |]. exists (u ++ s "." ++ v ++ t), []. split; [now rewrite app_nil_r |]. split.
      * cbn [rmatch]. apply rany_iff. exists [RGroup [ext_res fuzzy x]]. split.
        -- apply in_map_iff. exists (s "(.*\." ++ (extension_regex x ++ (if fuzzy then s ".*" else [])) ++ s ")", [RGroup [ext_res fuzzy x]]).
           split; [reflexivity |]. apply in_map_iff. exists x. now split.
        -- apply rseq_one, rmatch_group1. apply ext_res_iff; [exact Hlf |]. exists u, v, t. auto.
      * apply rseq_one. split; [reflexivity | now left].
Qed.

