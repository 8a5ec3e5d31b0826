(** * Proofs about crazy_complete/pattern.py. *)
From Verif Require Import Base ShellParser Pattern SpecShell SpecGlob SpecRegex SpecPattern BashPatternsProofs GlobMatch ShellProofs.
Open Scope list_scope.

(** ** Lexing *)
Definition in_run (c : N) : bool := negb (memc c [STAR; QM; LBRK; RBRK; RPAR; PIPE; DQ; SQ; LPAR; BANG]).
(** [rest] does not go on with the text of a literal *)
Definition breaks (rest : str) : Prop :=
  match rest with
  | [] => True
  | c :: r => memc c [STAR; QM; LBRK; RBRK; RPAR; PIPE; DQ; SQ] = true \/ memc c EXTGLOB_TOKENS_PRE && next_lpar r = true
  end.
Lemma in_run_facts c : in_run c = true -> forall d, In d [STAR; QM; LBRK; RBRK; RPAR; PIPE; DQ; SQ; LPAR; BANG] -> N.eqb c d = false.
Proof.
  unfold in_run, memc. intros H d Hd. apply negb_true_iff in H. destruct (N.eqb c d) eqn:E; [| reflexivity].
  rewrite <- H. symmetry. apply existsb_exists. exists d. auto.
Qed.
Lemma next_lpar_run l rest : forallb in_run l = true -> breaks rest -> next_lpar (l ++ rest) = false.
Proof.
  intros Hl Hb. destruct l as [| c l]; cbn [app next_lpar].
  - destruct rest as [| c r]; [reflexivity |]. cbn. destruct (N.eqb_spec c LPAR) as [-> |]; [| reflexivity].
    destruct Hb as [H | H]; discriminate.
  - cbn in Hl. apply andb_prop in Hl as [H _]. apply (in_run_facts c H LPAR). cbn. tauto.
Qed.
Lemma lex_literal_run l rest : forallb in_run l = true -> breaks rest -> lex_literal (l ++ rest) = (l, rest).
Proof.
  intros Hl Hb. induction l as [| c l IH].
  - cbn [app]. destruct rest as [| c r]; [reflexivity |]. cbn [lex_literal].
    destruct (memc c EXTGLOB_TOKENS_PRE && next_lpar r) eqn:E; [reflexivity |].
    destruct Hb as [H | H]; [now rewrite H | congruence].
  - cbn [app lex_literal]. pose proof Hl as Hl0. cbn in Hl. apply andb_prop in Hl as [Hc Hl].
    rewrite (next_lpar_run l rest Hl Hb), andb_false_r.
    pose proof (in_run_facts c Hc) as F. cbn [memc existsb].
    rewrite (F STAR), (F QM), (F LBRK), (F RBRK), (F RPAR), (F PIPE), (F DQ), (F SQ) by (cbn; tauto).
    cbn [orb]. now rewrite (IH Hl).
Qed.

Definition lexed (x : str) (l : list gtok) : Prop := forall fuel, List.length x <= fuel -> lex_loop fuel x = Ok l.
Lemma lexed_nil : lexed [] [].
Proof. intros [|f] _; reflexivity. Qed.
Lemma lexed_step c x t r l : lex_token c x = Ok (t, r) -> List.length r <= List.length x -> lexed r l -> lexed (c :: x) (t :: l).
Proof.
  intros Ht Hr Hl [| f] Hf; [cbn in Hf; lia |]. cbn [lex_loop]. rewrite Ht. cbn [bind].
  rewrite Hl by (cbn in Hf; lia). reflexivity.
Qed.
Lemma lexed_run c l rest ts : forallb in_run (c :: l) = true -> breaks rest -> lexed rest ts ->
  lexed (c :: l ++ rest) (GLit (c :: l) :: ts).
Proof.
  intros Hl Hb Hr. pose proof Hl as Hl0. cbn in Hl. apply andb_prop in Hl as [Hc Hl].
  apply lexed_step with (r := rest); [| rewrite app_length; lia | exact Hr].
  unfold lex_token. rewrite (next_lpar_run l rest Hl Hb), andb_false_r.
  pose proof (in_run_facts c Hc) as F. cbn [memc existsb].
  rewrite (F STAR), (F QM), (F LBRK), (F RBRK), (F RPAR), (F PIPE), (F DQ), (F SQ), (F BANG) by (cbn; tauto).
  cbn [orb]. now rewrite (lex_literal_run l rest Hl Hb).
Qed.
Lemma lexed_single x rest ts : ~ In SQ x -> lexed rest ts -> lexed (s "'" ++ x ++ s "'" ++ rest) (GLit x :: ts).
Proof.
  intros Hx Hr. change (s "'" ++ x ++ s "'" ++ rest) with (SQ :: x ++ SQ :: rest).
  apply lexed_step with (r := rest); [| rewrite app_length; cbn; lia | exact Hr].
  unfold lex_token. cbn [N.eqb memc existsb andb orb EXTGLOB_TOKENS_PRE]. cbn -[single_quote_loop].
  now rewrite single_quote_loop_app.
Qed.
Lemma double_quote_plain x rest : ~ In DQ x -> ~ In BS x -> double_quote_loop (x ++ DQ :: rest) = Ok (x, rest).
Proof.
  induction x as [| c x IH]; intros H1 H2; [reflexivity |]. cbn [app double_quote_loop].
  destruct (N.eqb_spec c BS) as [-> |]; [cbn in H2; tauto |].
  destruct (N.eqb_spec c DQ) as [-> |]; [cbn in H1; tauto |].
  cbn in H1, H2. rewrite IH by tauto. reflexivity.
Qed.
Lemma lexed_double x rest ts : ~ In DQ x -> ~ In BS x -> lexed rest ts -> lexed ([DQ] ++ x ++ [DQ] ++ rest) (GLit x :: ts).
Proof.
  intros H1 H2 Hr. change ([DQ] ++ x ++ [DQ] ++ rest) with (DQ :: x ++ DQ :: rest).
  apply lexed_step with (r := rest); [| rewrite app_length; cbn; lia | exact Hr].
  unfold lex_token. cbn -[double_quote_loop]. now rewrite double_quote_plain.
Qed.

Lemma plain_in_run c : plain c = true -> in_run c = true.
Proof.
  intros H. pose proof (plain_facts c H) as F. unfold in_run. cbn [memc existsb].
  rewrite (F STAR), (F QM), (F LBRK), (F RBRK), (F RPAR), (F PIPE), (F DQ), (F SQ), (F LPAR), (F BANG) by (cbn; tauto).
  reflexivity.
Qed.

(** ** Literal text *)
Lemma lit_ok_cases l : lit_ok l = true ->
  lit_chars l <> [] /\ (forall c, In c (lit_chars l) -> c <> BS /\ c <> CARET /\ c <> DOLLAR) /\
  match l with LPlain c => plain c = true | LSingle x => ~ In SQ x | LDouble x => ~ In DQ x /\ ~ In BS x /\ ~ In BTICK x end.
Proof.
  destruct l as [c | x | x]; cbn [lit_ok lit_chars]; intros H.
  - split; [discriminate |]. split; [| exact H]. intros d [<- | []].
    pose proof (plain_facts c H) as F.
    repeat split; intros ->; [specialize (F BS) | specialize (F CARET) | specialize (F DOLLAR)]; cbn in F;
      assert (true = false) by tauto; discriminate.
  - apply andb_prop in H as [Hn H]. rewrite forallb_forall in H.
    assert (F : forall c d, In c x -> In d [SQ; BS; CARET; DOLLAR] -> c <> d).
    { intros c d Hc Hd ->. specialize (H d Hc). apply negb_true_iff in H.
      assert (K : memc d [SQ; BS; CARET; DOLLAR] = true) by (apply existsb_exists; exists d; split; [exact Hd | apply N.eqb_refl]).
      congruence. }
    split; [destruct x; discriminate |]. split.
    + intros c Hc. repeat split; apply (F c); cbn; auto.
    + intros Hc. apply (F SQ SQ Hc); cbn; auto.
  - apply andb_prop in H as [Hn H]. rewrite forallb_forall in H.
    assert (F : forall c d, In c x -> In d [DQ; BS; CARET; DOLLAR; BTICK] -> c <> d).
    { intros c d Hc Hd ->. specialize (H d Hc). apply negb_true_iff in H.
      assert (K : memc d [DQ; BS; CARET; DOLLAR; BTICK] = true) by (apply existsb_exists; exists d; split; [exact Hd | apply N.eqb_refl]).
      congruence. }
    split; [destruct x; discriminate |]. split.
    + intros c Hc. repeat split; apply (F c); cbn; auto.
    + split; [| split]; intros Hc; [apply (F DQ DQ Hc) | apply (F BS BS Hc) | apply (F BTICK BTICK Hc)]; cbn; auto 8.
Qed.
Lemma breaks_quote x rest : breaks ((s "'" ++ x) ++ rest) /\ breaks (([DQ] ++ x) ++ rest).
Proof. split; left; reflexivity. Qed.

(** A pending run [r] before the rest. *)
Definition flush (r : str) (ts : list gtok) : list gtok := match r with [] => ts | _ => GLit r :: ts end.
Lemma lexed_flush r rest ts : forallb in_run r = true -> breaks rest -> lexed rest ts -> lexed (r ++ rest) (flush r ts).
Proof. intros Hr Hb Hl. destruct r as [| c r]; [exact Hl | now apply lexed_run]. Qed.

Lemma body_lexed body : forallb lit_ok body = true -> forall r, forallb in_run r = true ->
  exists ts, (forall rest ts', breaks rest -> lexed rest ts' -> lexed (r ++ flat_map lit_text body ++ rest) (ts ++ ts')) /\
    (forall t, In t ts -> exists x, t = GLit x) /\ flat_map tok_str ts = r ++ flat_map lit_chars body.
Proof.
  induction body as [| l body IH]; intros Hok r Hr.
  - exists (flush r []). split; [| split].
    + intros rest ts' Hb Hl. cbn [flat_map app].
      replace (flush r [] ++ ts') with (flush r ts') by (destruct r; reflexivity). now apply lexed_flush.
    + intros t Ht. destruct r; [destruct Ht |]. destruct Ht as [<- | []]. now eexists.
    + destruct r; cbn; rewrite ?app_nil_r; reflexivity.
  - cbn in Hok. apply andb_prop in Hok as [Hl Hok]. pose proof (lit_ok_cases l Hl) as (_ & _ & Hc).
    destruct l as [c | x | x]; cbn [flat_map lit_text lit_chars].
    + destruct (IH Hok (r ++ [c])) as (ts & H1 & H2 & H3).
      { rewrite forallb_app, Hr. cbn. now rewrite plain_in_run. }
      exists ts. split; [| split; [exact H2 |]].
      * intros rest ts' Hb Hlx. specialize (H1 rest ts' Hb Hlx). rewrite <- app_assoc in H1. exact H1.
      * rewrite H3, <- app_assoc. reflexivity.
    + destruct (IH Hok [] eq_refl) as (ts & H1 & H2 & H3). exists (flush r (GLit x :: ts)). split; [| split].
      * intros rest ts' Hb Hlx. specialize (H1 rest ts' Hb Hlx). cbn [app] in H1.
        replace (flush r (GLit x :: ts) ++ ts') with (flush r (GLit x :: ts ++ ts')) by (destruct r; reflexivity).
        rewrite <- !app_assoc. apply lexed_flush; [exact Hr | left; reflexivity |]. now apply lexed_single.
      * intros t Ht. destruct r; cbn in Ht; [destruct Ht as [<- | Ht] | destruct Ht as [<- | [<- | Ht]]]; try (now eexists); now apply H2.
      * destruct r; cbn [flush flat_map tok_str]; rewrite H3; reflexivity.
    + destruct (IH Hok [] eq_refl) as (ts & H1 & H2 & H3). exists (flush r (GLit x :: ts)). split; [| split].
      * intros rest ts' Hb Hlx. specialize (H1 rest ts' Hb Hlx). cbn [app] in H1.
        replace (flush r (GLit x :: ts) ++ ts') with (flush r (GLit x :: ts ++ ts')) by (destruct r; reflexivity).
        rewrite <- !app_assoc. apply lexed_flush; [exact Hr | left; reflexivity |]. now apply lexed_double.
      * intros t Ht. destruct r; cbn in Ht; [destruct Ht as [<- | Ht] | destruct Ht as [<- | [<- | Ht]]]; try (now eexists); now apply H2.
      * destruct r; cbn [flush flat_map tok_str]; rewrite H3; reflexivity.
Qed.

(** ** Parsing *)
Definition takes (l : list gtok) (p : pat) (l' : list gtok) : Prop :=
  List.length l' < List.length l /\ forall fuel, 2 * List.length l <= fuel -> parse_token fuel l = Ok (p, l').
Inductive parses : list gtok -> list pat -> Prop :=
| parses_nil : parses [] []
| parses_cons p t ts1 ts2 pats : (forall rest, takes ((t :: ts1) ++ rest) p rest) ->
    tok_is (s ")") t = false -> tok_is (s "|") t = false -> parses ts2 pats ->
    parses ((t :: ts1) ++ ts2) (p :: pats).
Lemma parses_app ts1 pats1 ts2 pats2 : parses ts1 pats1 -> parses ts2 pats2 -> parses (ts1 ++ ts2) (pats1 ++ pats2).
Proof.
  intros H1 H2. induction H1 as [| p t a b pats Ht E1 E2 H IH]; [exact H2 |].
  rewrite <- app_assoc. cbn [app]. change (t :: a ++ b ++ ts2) with ((t :: a) ++ (b ++ ts2)). now constructor.
Qed.
Lemma parse_loop_parses ts pats : parses ts pats -> forall fuel root, 2 * List.length ts <= fuel ->
  parse_loop fuel root ts = Ok (root ++ pats).
Proof.
  induction 1 as [| p t a b pats Ht E1 E2 H IH]; intros fuel root Hf.
  - destruct fuel; cbn; now rewrite app_nil_r.
  - destruct (Ht b) as [Hlen Htok]. destruct fuel as [| fuel]; [cbn in Hf; lia |].
    cbn [parse_loop app]. change (t :: a ++ b) with ((t :: a) ++ b) in *. rewrite Htok by exact Hf. cbn [bind].
    rewrite IH, <- app_assoc; [reflexivity |]. lia.
Qed.
Lemma parse_ext_parses ts pats : parses ts pats -> forall type_ done cur rest r,
  (forall fuel, 2 * List.length rest + 1 <= fuel -> parse_ext_glob fuel type_ done (cur ++ pats) rest = r) ->
  forall fuel, 2 * List.length (ts ++ rest) + 1 <= fuel -> parse_ext_glob fuel type_ done cur (ts ++ rest) = r.
Proof.
  induction 1 as [| p t a b pats Ht E1 E2 H IH]; intros type_ done cur rest r Hr fuel Hf.
  - cbn [app] in *. rewrite app_nil_r in Hr. now apply Hr.
  - rewrite <- app_assoc in *. destruct (Ht (b ++ rest)) as [Hlen Htok].
    destruct fuel as [| fuel]; [cbn in Hf; lia |].
    cbn [parse_ext_glob app]. rewrite E1, E2. change (t :: a ++ b ++ rest) with ((t :: a) ++ b ++ rest) in *.
    rewrite Htok by lia. cbn [bind]. apply IH; [| lia]. intros fuel' Hf'. rewrite <- app_assoc. cbn [app]. now apply Hr.
Qed.
Lemma parses_lit x : parses [GLit x] [PTok (GLit x)].
Proof.
  apply (parses_cons _ _ [] [] []); [| reflexivity | reflexivity | constructor]. intros rest. split; [cbn; lia |].
  intros [| fuel] Hf; [cbn in Hf; lia |]. reflexivity.
Qed.
Lemma parses_flush r ts pats : parses ts pats ->
  parses (flush r ts) (match r with [] => pats | _ => PTok (GLit r) :: pats end).
Proof.
  intros H. destruct r as [| c r]; [exact H |]. exact (parses_app [GLit (c :: r)] [PTok (GLit (c :: r))] ts pats (parses_lit _) H).
Qed.
Lemma parses_star : parses [GOp (s "*")] [PStar].
Proof.
  apply (parses_cons _ _ [] [] []); [| reflexivity | reflexivity | constructor]. intros rest. split; [cbn; lia |].
  intros [| fuel] Hf; [cbn in Hf; lia |]. reflexivity.
Qed.
Lemma parses_question : parses [GOp (s "?")] [PQuestion].
Proof.
  apply (parses_cons _ _ [] [] []); [| reflexivity | reflexivity | constructor]. intros rest. split; [cbn; lia |].
  intros [| fuel] Hf; [cbn in Hf; lia |]. reflexivity.
Qed.
Lemma class_loop_lits ts : (forall t, In t ts -> exists x, t = GLit x) -> forall chars negated rest,
  class_loop chars negated (ts ++ GOp (s "]") :: rest) = Ok (PClass (chars ++ flat_map tok_str ts) negated, rest).
Proof.
  induction ts as [| t ts IH]; intros H chars negated rest; [cbn; now rewrite app_nil_r |].
  destruct (H t (or_introl eq_refl)) as (x & ->). cbn [app class_loop tok_is flat_map].
  rewrite IH by (intros t' Ht'; apply H; now right). now rewrite <- app_assoc.
Qed.
Lemma parses_class ts (negated : bool) : (forall t, In t ts -> exists x, t = GLit x) -> ts <> [] ->
  parses ([GOp (s "[")] ++ (if negated then [GOp (s "!")] else []) ++ ts ++ [GOp (s "]")]) [PClass (flat_map tok_str ts) negated].
Proof.
  intros H Hn. rewrite <- (app_nil_r ([GOp (s "[")] ++ _)).
  apply (parses_cons _ (GOp (s "[")) ((if negated then [GOp (s "!")] else []) ++ ts ++ [GOp (s "]")]) [] []);
    [| reflexivity | reflexivity | constructor]. intros rest. split.
  { rewrite !app_length. cbn. lia. }
  intros [| fuel] Hf; [cbn in Hf; lia |]. cbn [app parse_token].
  change (tok_is (s "[") (GOp (s "["))) with true. cbv iota. rewrite <- !app_assoc.
  change ([GOp (s "]")] ++ rest) with (GOp (s "]") :: rest).
  destruct negated; cbn [app].
  - cbn [parse_char_class]. change (tok_is (s "!") (GOp (s "!"))) with true. cbv iota.
    now rewrite class_loop_lits.
  - destruct ts as [| t ts]; [now destruct Hn |]. destruct (H t (or_introl eq_refl)) as (x & ->).
    cbn [app parse_char_class tok_is]. rewrite class_loop_lits by (intros t' Ht'; apply H; now right). reflexivity.
Qed.

(** ** Induction on pieces *)
Section PieceInd.
Context (P : piece -> Prop).
Context (HLit : forall l, P (Lit l)) (HAny : P Any) (HText : P Some_text)
  (HBracket : forall n b, P (Bracket n b))
  (HGroup : forall k alts, (forall a p, In a alts -> In p a -> P p) -> P (Group k alts)).
Fixpoint piece_rect' (p : piece) : P p :=
  match p with
  | Lit l => HLit l
  | Any => HAny
  | Some_text => HText
  | Bracket n b => HBracket n b
  | Group k alts => HGroup k alts
      ((fix goa (alts : list (list piece)) : forall a p, In a alts -> In p a -> P p :=
          match alts with
          | [] => fun a p Ha _ => match Ha with end
          | x :: alts' => fun a p Ha Hp =>
              match Ha with
              | or_introl E => (fix gos (l : list piece) : In p l -> P p :=
                    match l with
                    | [] => fun H => match H with end
                    | y :: l' => fun H => match H with
                        | or_introl E' => eq_ind y P (piece_rect' y) p E'
                        | or_intror H' => gos l' H'
                        end
                    end) x (eq_ind_r (fun z => In p z) Hp E)
              | or_intror Ha' => goa alts' a p Ha' Hp
              end
          end) alts)
  end.
End PieceInd.

(** ** Translation, for both target languages *)
Section Convert.
Context (kinds : kind -> bool) (f : pat -> res str) (lf : str -> str) (cf : str -> bool -> str)
  (star_text any_text : str) (wr : kind -> str -> str).
Context (f_lit : forall x, f (PTok (GLit x)) = Ok (lf x)) (lf_nil : lf [] = [])
  (lf_app : forall x y, lf (x ++ y) = lf x ++ lf y)
  (f_star : f PStar = Ok star_text) (f_any : f PQuestion = Ok any_text)
  (f_class : forall x n, f (PClass x n) = Ok (cf x n))
  (f_ext : forall k alts r, kinds k = true -> alts_res f alts = Ok r ->
     f (PExt (kind_char k) alts) = Ok (wr k (s "(" ++ join (s "|") r ++ s ")"))).

Fixpoint conv (p : piece) : str :=
  match p with
  | Lit l => lf (lit_chars l)
  | Any => any_text
  | Some_text => star_text
  | Bracket n body => cf (flat_map lit_chars body) n
  | Group k alts => wr k (s "(" ++ join (s "|") (map (flat_map conv) alts) ++ s ")")
  end.

Lemma seq_res_app l1 l2 y1 y2 : seq_res f l1 = Ok y1 -> seq_res f l2 = Ok y2 -> seq_res f (l1 ++ l2) = Ok (y1 ++ y2).
Proof.
  revert y1. induction l1 as [| p l1 IH]; intros y1 H1 H2; cbn [app seq_res] in *.
  - injection H1 as <-. exact H2.
  - destruct (f p) as [e | x]; [discriminate |]. cbn [bind] in *. destruct (seq_res f l1) as [e | z]; [discriminate |].
    cbn [bind] in H1. injection H1 as <-. rewrite (IH z eq_refl H2). cbn [bind]. now rewrite app_assoc.
Qed.
Lemma seq_res_one p y : f p = Ok y -> seq_res f [p] = Ok y.
Proof. intros H. cbn. rewrite H. cbn. now rewrite app_nil_r. Qed.

(** [x] is translated to [y], also behind unquoted literal text [r] *)
Definition converts (x y : str) : Prop := forall r, forallb in_run r = true ->
  hd_error x <> Some LPAR /\ exists ts pats,
    (forall rest ts', breaks rest -> lexed rest ts' -> lexed (r ++ x ++ rest) (ts ++ ts')) /\
    parses ts pats /\ seq_res f pats = Ok (lf r ++ y).
(** what stands by itself: its text ends any literal before it *)
Definition converts1 (x y : str) : Prop :=
  exists ts pats,
    (forall rest ts', next_lpar rest = false -> lexed rest ts' -> lexed (x ++ rest) (ts ++ ts')) /\
    (forall rest, next_lpar rest = false -> breaks (x ++ rest)) /\ hd_error x <> Some LPAR /\
    parses ts pats /\ seq_res f pats = Ok y.

Lemma converts_nil : converts [] [].
Proof.
  intros r Hr. split; [discriminate |].
  exists (flush r []), (match r with [] => [] | _ => [PTok (GLit r)] end). split; [| split].
  - intros rest ts' Hb Hl. replace (flush r [] ++ ts') with (flush r ts') by (destruct r; reflexivity).
    now apply lexed_flush.
  - apply (parses_flush r [] []). constructor.
  - destruct r; [cbn; now rewrite lf_nil |]. rewrite app_nil_r. apply seq_res_one, f_lit.
Qed.
Lemma converts_plain c x y : plain c = true -> converts x y -> converts (c :: x) (lf [c] ++ y).
Proof.
  intros Hc H r Hr. destruct (H (r ++ [c])) as (_ & ts & pats & H1 & H2 & H3).
  { rewrite forallb_app, Hr. cbn. now rewrite plain_in_run. }
  split; [intros E; injection E as ->; discriminate |].
  exists ts, pats. split; [| split; [exact H2 |]].
  - intros rest ts' Hb Hl. specialize (H1 rest ts' Hb Hl). rewrite <- app_assoc in H1. exact H1.
  - rewrite H3, lf_app, <- app_assoc. reflexivity.
Qed.
Lemma converts_one x1 y1 x2 y2 : converts1 x1 y1 -> converts x2 y2 -> converts (x1 ++ x2) (y1 ++ y2).
Proof.
  intros (ts1 & p1 & H1 & B & Hh & P1 & S1) H2 r Hr. destruct (H2 [] eq_refl) as (Hh2 & ts2 & p2 & L2 & P2 & S2).
  rewrite lf_nil in S2. cbn [app] in L2, S2.
  split; [destruct x1; [exact Hh2 | exact Hh] |].
  assert (Hnl : forall rest, breaks rest -> next_lpar (x2 ++ rest) = false).
  { intros rest Hb. destruct x2 as [| c x2]; [exact (next_lpar_run [] rest eq_refl Hb) |]. cbn.
    apply N.eqb_neq. intros ->. now destruct Hh2. }
  exists (flush r (ts1 ++ ts2)), (match r with [] => p1 ++ p2 | _ => PTok (GLit r) :: p1 ++ p2 end). split; [| split].
  - intros rest ts' Hb Hl. replace (flush r (ts1 ++ ts2) ++ ts') with (flush r (ts1 ++ ts2 ++ ts')) by (destruct r; cbn; now rewrite <- app_assoc).
    rewrite <- app_assoc. apply lexed_flush; [exact Hr | apply B; now apply Hnl |].
    apply H1; [now apply Hnl | now apply L2].
  - apply parses_flush. now apply parses_app.
  - pose proof (seq_res_app p1 p2 y1 y2 S1 S2) as S. destruct r as [| c r]; [rewrite lf_nil; exact S |].
    change (PTok (GLit (c :: r)) :: p1 ++ p2) with ([PTok (GLit (c :: r))] ++ p1 ++ p2).
    apply seq_res_app; [apply seq_res_one, f_lit | exact S].
Qed.

(** alternatives: the text between the parentheses *)
Lemma group_lexed parts : (forall q, In q parts -> converts (fst q) (snd q)) -> parts <> [] ->
  exists ts alts,
    (forall rest ts', lexed rest ts' -> lexed (join (s "|") (map fst parts) ++ s ")" ++ rest) (ts ++ ts')) /\
    (forall type_ done rest fuel, 2 * List.length (ts ++ rest) + 1 <= fuel ->
       parse_ext_glob fuel type_ done [] (ts ++ rest) = Ok (PExt type_ (done ++ alts), rest)) /\
    alts_res f alts = Ok (map snd parts) /\ ts <> [].
Proof.
  induction parts as [| [x y] parts IH]; intros H Hn; [now destruct Hn |].
  destruct (H (x, y) (or_introl eq_refl) [] eq_refl) as (_ & ts1 & pats & L1 & P1 & S1). cbn [fst snd app] in L1, S1.
  rewrite lf_nil in S1. cbn [app] in S1.
  destruct parts as [| q parts].
  - exists (ts1 ++ [GOp (s ")")]), [pats]. cbn [map join fst snd]. split; [| split; [| split]].
    + intros rest ts' Hl. rewrite <- app_assoc. apply L1; [left; reflexivity |].
      change (s ")" ++ rest) with (RPAR :: rest). apply lexed_step with (r := rest); [reflexivity | lia | exact Hl].
    + intros type_ done rest fuel Hf. rewrite <- app_assoc in *. apply (parse_ext_parses ts1 pats P1); [| exact Hf].
      intros [| fuel'] Hf'; [lia |]. reflexivity.
    + cbn [alts_res]. rewrite S1. reflexivity.
    + destruct ts1; discriminate.
  - destruct IH as (ts2 & alts & L2 & P2 & S2 & N2); [intros q' Hq; apply H; now right | discriminate |].
    exists (ts1 ++ GOp (s "|") :: ts2), (pats :: alts).
    change (map fst ((x, y) :: q :: parts)) with (x :: map fst (q :: parts)).
    change (map snd ((x, y) :: q :: parts)) with (y :: map snd (q :: parts)).
    set (more := q :: parts) in *.
    assert (Ej : join (s "|") (x :: map fst more) = x ++ s "|" ++ join (s "|") (map fst more)) by reflexivity.
    rewrite Ej. split; [| split; [| split]].
    + intros rest ts' Hl. rewrite <- !app_assoc. apply L1; [left; reflexivity |].
      change (s "|" ++ join (s "|") (map fst more) ++ s ")" ++ rest) with (PIPE :: join (s "|") (map fst more) ++ s ")" ++ rest).
      cbn [app].
      apply lexed_step with (r := join (s "|") (map fst more) ++ s ")" ++ rest); [| lia | now apply L2].
      unfold lex_token. cbn [memc existsb EXTGLOB_TOKENS_PRE s]. reflexivity.
    + intros type_ done rest fuel Hf. rewrite <- app_assoc in *. apply (parse_ext_parses ts1 pats P1); [| exact Hf].
      intros [| fuel'] Hf'; [lia |]. cbn [app parse_ext_glob]. change (tok_is (s ")") (GOp (s "|"))) with false.
      change (tok_is (s "|") (GOp (s "|"))) with true. cbv iota. rewrite P2, <- app_assoc; [reflexivity |].
      cbn [app List.length] in Hf'. lia.
    + cbn [alts_res]. rewrite S1. cbn [bind]. rewrite S2. reflexivity.
    + destruct ts1; discriminate.
Qed.
Lemma converts1_group k parts : kinds k = true -> (forall q, In q parts -> converts (fst q) (snd q)) -> parts <> [] ->
  converts1 ([kind_char k] ++ s "(" ++ join (s "|") (map fst parts) ++ s ")")
            (wr k (s "(" ++ join (s "|") (map snd parts) ++ s ")")).
Proof.
  intros Hk H Hn. destruct (group_lexed parts H Hn) as (ts & alts & L & P & S & N).
  exists (GOp [kind_char k; LPAR] :: ts), [PExt (kind_char k) alts]. split; [| split; [| split; [| split]]].
  - intros rest ts' _ Hl. rewrite <- !app_assoc. cbn [app].
    set (z := join (s "|") (map fst parts) ++ s ")" ++ rest).
    apply lexed_step with (r := z); [| cbn; lia | now apply L].
    destruct k; reflexivity.
  - intros rest _. right. destruct k; reflexivity.
  - destruct k; discriminate.
  - rewrite <- (app_nil_r (GOp _ :: ts)). apply (parses_cons _ _ ts [] []); [| destruct k; reflexivity | destruct k; reflexivity | constructor].
    + intros rest. split; [cbn; rewrite app_length; lia |]. intros [| fuel] Hf; [cbn in Hf; lia |].
      cbn [app parse_token].
      assert (E : parse_ext_glob fuel (kind_char k) [] [] (ts ++ rest) = Ok (PExt (kind_char k) alts, rest)).
      { apply (P (kind_char k) []). cbn in Hf |- *. lia. }
      destruct k; exact E.
  - apply seq_res_one. now apply f_ext.
Qed.

Lemma converts1_bracket n body : piece_ok kinds (Bracket n body) = true ->
  converts1 (text (Bracket n body)) (conv (Bracket n body)).
Proof.
  cbn [piece_ok]. intros H. apply andb_prop in H as [H Hord]. apply andb_prop in H as [H Hdash].
  apply andb_prop in H as [Hne Hok].
  destruct (body_lexed body Hok [] eq_refl) as (ts & L & Hlit & Hch). cbn [app] in L, Hch.
  assert (Hn : ts <> []).
  { intros ->. cbn in Hch. destruct body as [| l body]; [discriminate |]. cbn in Hok. apply andb_prop in Hok as [Hl _].
    destruct (lit_ok_cases l Hl) as (Hc & _). cbn in Hch. destruct (lit_chars l); [now destruct Hc | discriminate]. }
  exists ([GOp (s "[")] ++ (if n then [GOp (s "!")] else []) ++ ts ++ [GOp (s "]")]), [PClass (flat_map tok_str ts) n].
  split; [| split; [| split; [| split]]].
  - intros rest ts' _ Hl. cbn [text]. rewrite <- !app_assoc.
    assert (Hin : lexed (flat_map lit_text body ++ s "]" ++ rest) (ts ++ [GOp (s "]")] ++ ts')).
    { apply L; [left; reflexivity |]. change (s "]" ++ rest) with (RBRK :: rest).
      apply lexed_step with (r := rest); [reflexivity | lia | exact Hl]. }
    set (z := flat_map lit_text body ++ s "]" ++ rest) in *.
    destruct n.
    + change (s "[" ++ s "!" ++ z) with (LBRK :: BANG :: z). cbn [app].
      apply lexed_step with (r := BANG :: z); [reflexivity | lia |].
      apply lexed_step with (r := z); [| lia | exact Hin].
      unfold lex_token. replace (next_lpar z) with false; [reflexivity |]. symmetry.
      unfold z. destruct body as [| l body]; [discriminate |]. cbn [forallb] in Hok. apply andb_prop in Hok as [Hl' _].
      destruct l as [c | x | x]; cbn [flat_map lit_text]; [| reflexivity | reflexivity].
      cbn. apply (plain_facts c); [exact Hl' | cbn; tauto].
    + change (s "[" ++ [] ++ z) with (LBRK :: z). cbn [app].
      apply lexed_step with (r := z); [reflexivity | lia | exact Hin].
  - intros rest _. left. reflexivity.
  - discriminate.
  - now apply parses_class.
  - cbn [conv]. rewrite Hch. apply seq_res_one, f_class.
Qed.

Lemma converts_pieces ps : (forall p, In p ps -> piece_ok kinds p = true) ->
  (forall p, In p ps -> match p with Group _ _ => converts1 (text p) (conv p) | _ => True end) ->
  converts (flat_map text ps) (flat_map conv ps).
Proof.
  induction ps as [| p ps IH]; intros Hok Hg; [apply converts_nil |].
  assert (IH' : converts (flat_map text ps) (flat_map conv ps)).
  { apply IH; intros q Hq; [apply Hok | apply Hg]; now right. }
  pose proof (Hok p (or_introl eq_refl)) as Hp. cbn [flat_map].
  destruct p as [[c | x | x] | | | n body | k alts].
  - now apply converts_plain.
  - apply converts_one; [| exact IH']. destruct (lit_ok_cases _ Hp) as (_ & _ & Hsq).
    exists [GLit x], [PTok (GLit x)]. split; [| split; [| split; [| split]]].
    + intros rest ts' _ Hl. cbn [text lit_text]. rewrite <- !app_assoc. now apply lexed_single.
    + intros rest _. left. reflexivity.
    + discriminate.
    + apply parses_lit.
    + apply seq_res_one, f_lit.
  - apply converts_one; [| exact IH']. destruct (lit_ok_cases _ Hp) as (_ & _ & Hdq & Hbs & _).
    exists [GLit x], [PTok (GLit x)]. split; [| split; [| split; [| split]]].
    + intros rest ts' _ Hl. cbn [text lit_text]. rewrite <- !app_assoc. now apply lexed_double.
    + intros rest _. left. reflexivity.
    + discriminate.
    + apply parses_lit.
    + apply seq_res_one, f_lit.
  - apply converts_one; [| exact IH']. exists [GOp (s "?")], [PQuestion]. split; [| split; [| split; [| split]]].
    + intros rest ts' Hnl Hl. cbn [text]. change (s "?" ++ rest) with (QM :: rest). cbn [app].
      apply lexed_step with (r := rest); [| lia | exact Hl]. unfold lex_token. now rewrite Hnl, andb_false_r.
    + intros rest _. left. reflexivity.
    + discriminate.
    + apply parses_question.
    + apply seq_res_one, f_any.
  - apply converts_one; [| exact IH']. exists [GOp (s "*")], [PStar]. split; [| split; [| split; [| split]]].
    + intros rest ts' Hnl Hl. cbn [text]. change (s "*" ++ rest) with (STAR :: rest). cbn [app].
      apply lexed_step with (r := rest); [| lia | exact Hl]. unfold lex_token. now rewrite Hnl, andb_false_r.
    + intros rest _. left. reflexivity.
    + discriminate.
    + apply parses_star.
    + apply seq_res_one, f_star.
  - apply converts_one; [| exact IH']. now apply converts1_bracket.
  - apply converts_one; [| exact IH']. exact (Hg _ (or_introl eq_refl)).
Qed.
Lemma group_converts p : piece_ok kinds p = true -> match p with Group _ _ => converts1 (text p) (conv p) | _ => True end.
Proof.
  induction p as [| | | |k alts IH] using piece_rect'; intros Hok; try exact I.
  cbn [piece_ok] in Hok. apply andb_prop in Hok as [Hok Hall]. apply andb_prop in Hok as [Hk Hne].
  pose proof (converts1_group k (map (fun a => (flat_map text a, flat_map conv a)) alts) Hk) as H.
  rewrite !map_map in H. cbn [fst snd] in H. apply H.
  - intros q Hq. apply in_map_iff in Hq as (a & <- & Ha). cbn [fst snd]. rewrite forallb_forall in Hall.
    specialize (Hall a Ha). rewrite forallb_forall in Hall. apply converts_pieces; [exact Hall |].
    intros p Hp. apply (IH a p Ha Hp). now apply Hall.
  - destruct alts; discriminate.
Qed.
Lemma translate ps : forallb (piece_ok kinds) ps = true ->
  (do l <- lex (flat_map text ps); do p <- parse l; seq_res f p) = Ok (flat_map conv ps).
Proof.
  rewrite forallb_forall. intros H.
  destruct (converts_pieces ps H (fun p Hp => group_converts p (H p Hp)) [] eq_refl) as (_ & ts & pats & L & P & S).
  specialize (L [] [] I lexed_nil). rewrite !app_nil_r in L. cbn [app] in L. unfold lex.
  rewrite L by lia. cbn [bind]. unfold parse. rewrite (parse_loop_parses ts pats P) by lia.
  cbn [bind app]. rewrite S, lf_nil. reflexivity.
Qed.
End Convert.
