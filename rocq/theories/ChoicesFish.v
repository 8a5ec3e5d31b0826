(** * Proofs: fish reads the texts made for choices. *)
From Verif Require Import Base PyStr Value Cli StrUtils StrUtilsProofs Preproc Shell SpecShell ShellProofs WhenProofs
  Helpers HelpersMore Choices SpecChoices ChoicesEmit ChoicesZsh ParserPaths.
Open Scope list_scope.

(** ** Words *)
Lemma fish_args_safe x rest w :
  forallb is_safe x = true -> x <> [] ->
  fish_args (Some FUnquoted) w (x ++ rest) = fish_args (Some FUnquoted) (Some (wval w ++ x)) rest.
Proof.
  revert w; induction x as [|c x IH]; intros w H Hn; [congruence|].
  cbn [forallb] in H. apply andb_true_iff in H as [Hc Hx].
  pose proof (safe_not_fish_special c Hc) as Hs.
  cbn [app fish_args].
  rewrite !(not_fspecial_neq c _ Hs) by reflexivity.
  cbn [orb]. rewrite Hs, push_val.
  destruct x as [|d x].
  - reflexivity.
  - rewrite IH; [|exact Hx|discriminate].
    cbn [wval]. rewrite <- app_assoc. reflexivity.
Qed.

Lemma fish_args_sq x rest w :
  ~ In SQ x -> ~ In BS x ->
  fish_args (Some FInSQ) w (x ++ SQ :: rest) =
  fish_args (Some FUnquoted) (match x with [] => w | _ => Some (wval w ++ x) end) rest.
Proof.
  revert w; induction x as [|c x IH]; intros w H Hb; [reflexivity|].
  cbn [app fish_args]. destruct (N.eqb_spec c SQ) as [->|Hc]; [cbn in H; tauto|].
  destruct (N.eqb_spec c BS) as [->|Hc2]; [cbn in Hb; tauto|].
  rewrite IH by (cbn in H, Hb; tauto). rewrite push_val.
  destruct x; cbn [wval]; [reflexivity|]. rewrite <- app_assoc. reflexivity.
Qed.

Lemma fish_args_dq x rest w :
  ~ In DQ x -> ~ In BTICK x ->
  fish_args (Some FInDQ) w (concat (map dq_esc x) ++ DQ :: rest) =
  fish_args (Some FUnquoted) (match x with [] => w | _ => Some (wval w ++ x) end) rest.
Proof.
  revert w; induction x as [|c x IH]; intros w H Ht.
  - reflexivity.
  - assert (Hs : forall w, fish_args (Some FInDQ) w (dq_esc c ++ concat (map dq_esc x) ++ DQ :: rest)
                 = fish_args (Some FInDQ) (push w c) (concat (map dq_esc x) ++ DQ :: rest)).
    { intros w'. unfold dq_esc at 1.
      destruct (N.eqb_spec c BS) as [->|Hb]; [reflexivity|].
      destruct (N.eqb_spec c DOLLAR) as [->|Hd]; [reflexivity|].
      destruct (N.eqb_spec c BTICK) as [->|Hk]; [cbn in Ht; tauto|].
      cbn [app fish_args].
      destruct (N.eqb_spec c DQ) as [->|Hq]; [cbn in H; tauto|].
      rewrite (proj2 (N.eqb_neq _ _) Hb), (proj2 (N.eqb_neq _ _) Hd). reflexivity. }
    cbn [map concat]. rewrite <- app_assoc, Hs, IH by (cbn in H, Ht; tauto).
    rewrite push_val. destruct x; cbn [wval]; [reflexivity|]. rewrite <- app_assoc. reflexivity.
Qed.

Lemma fish_args_mixed x rest w :
  ~ In BS x ->
  fish_args (Some FInSQ) w (replace_c SQ [SQ; DQ; SQ; DQ; SQ] x ++ SQ :: rest) =
  fish_args (Some FUnquoted) (match x with [] => w | _ => Some (wval w ++ x) end) rest.
Proof.
  revert w; induction x as [|c x IH]; intros w Hb.
  - reflexivity.
  - cbn [replace_c]. destruct (N.eqb_spec c SQ) as [->|Hc].
    + rewrite <- app_assoc. cbn [app].
      cbn [fish_args]. cbn. rewrite !start_val, push_val. cbn [start wval].
      rewrite IH by (cbn in Hb; tauto).
      destruct x; cbn [wval]; [reflexivity|]. rewrite <- app_assoc. reflexivity.
    + cbn [app fish_args]. destruct (N.eqb_spec c BS) as [->|Hc2]; [cbn in Hb; tauto|].
      rewrite (proj2 (N.eqb_neq _ _) Hc), IH, push_val by (cbn in Hb; tauto).
      destruct x; cbn [wval]; [reflexivity|]. rewrite <- app_assoc. reflexivity.
Qed.

Lemma fish_args_quote x rest w : ~ In BS x -> ~ In BTICK x ->
  fish_args (Some FUnquoted) w (quote x ++ rest) = fish_args (Some FUnquoted) (Some (wval w ++ x)) rest.
Proof.
  intros Hb Ht.
  assert (forall y, match y with [] => start w | _ => Some (wval (start w) ++ y) end = Some (wval w ++ y)) as Hs.
  { intros y. rewrite start_val. destruct y; cbn [wval]; [rewrite app_nil_r; reflexivity|reflexivity]. }
  destruct (quote_cases x) as [[Hf [Hn ->]]|[[_ [Hq ->]]|[[_ [_ [Hd ->]]]|[_ [_ [_ ->]]]]]].
  - apply fish_args_safe; assumption.
  - cbn [app]. rewrite <- app_assoc. cbn [app fish_args]. cbn [N.eqb Pos.eqb].
    rewrite fish_args_sq by assumption. rewrite Hs. reflexivity.
  - cbn [app]. rewrite <- app_assoc. cbn [app fish_args]. cbn [N.eqb Pos.eqb].
    rewrite fish_args_dq by assumption. rewrite Hs. reflexivity.
  - cbn [app]. rewrite <- app_assoc. cbn [app fish_args]. cbn [N.eqb Pos.eqb].
    rewrite fish_args_mixed by assumption. rewrite Hs. reflexivity.
Qed.

Definition fword (t v : str) : Prop :=
  forall w rest, fish_args (Some FUnquoted) w (t ++ rest) = fish_args (Some FUnquoted) (Some (wval w ++ v)) rest.
Lemma fword_quote x : ~ In BS x -> ~ In BTICK x -> fword (quote x) x.
Proof. intros H1 H2 w rest. now apply fish_args_quote. Qed.
Lemma fword_app t v t' v' : fword t v -> fword t' v' -> fword (t ++ t') (v ++ v').
Proof. intros H1 H2 w rest. rewrite <- app_assoc, H1, H2. cbn [wval]. now rewrite <- app_assoc. Qed.
Lemma fword_tab : fword [BS; 116%N] [TAB].
Proof. intros w rest. cbn [app fish_args]. cbn [N.eqb Pos.eqb]. now rewrite push_val. Qed.

(** what separates two words *)
Definition fsep (sep : str) : Prop :=
  forall v rest, fish_args (Some FUnquoted) (Some v) (sep ++ rest) = option_map (cons v) (fish_args (Some FUnquoted) None rest).
Lemma fsep_sp : fsep [SP].
Proof. intros v rest. reflexivity. Qed.
Lemma fsep_line n : fsep (SP :: BS :: LF :: repeat SP n).
Proof.
  intros v rest. cbn [app fish_args]. cbn [N.eqb Pos.eqb orb emit]. f_equal. induction n as [| n IH]; [reflexivity |]. cbn [repeat app fish_args]. exact IH.
Qed.
Inductive frest : str -> list str -> Prop :=
| fr_nil : frest [] []
| fr_cons sep t v r vs : fsep sep -> fword t v -> frest r vs -> frest (sep ++ t ++ r) (v :: vs).
Lemma frest_read r vs : frest r vs -> forall v, fish_args (Some FUnquoted) (Some v) r = Some (v :: vs).
Proof.
  induction 1 as [| sep t v r vs Hs Ht _ IH]; intros u; [reflexivity |]. rewrite Hs, Ht. cbn [wval app]. now rewrite IH.
Qed.
Lemma frest_app a vs b ws : frest a vs -> frest b ws -> frest (a ++ b) (vs ++ ws).
Proof. induction 1 as [| sep t v r vs Hs Ht _ IH]; intros H; [exact H |]. rewrite <- !app_assoc. cbn [app]. constructor; auto. Qed.
Lemma frest_join sep ts vs : fsep sep -> Forall2 fword ts vs -> ts <> [] -> frest (sep ++ join [SP] ts) vs.
Proof.
  intros Hs H. revert sep Hs. induction H as [| t v ts vs Ht H IH]; intros sep Hs Hn; [contradiction |].
  destruct ts as [| t' ts].
  - inversion H; subst. cbn [join]. rewrite <- (app_nil_r t). constructor; auto. constructor.
  - rewrite join_cons. constructor; auto. apply (IH [SP]); [apply fsep_sp | discriminate].
Qed.
Lemma argument_ok ts vs : Forall2 fword ts vs -> fish_argument (join [SP] ts) = Some (map fish_candidate vs).
Proof.
  intros H. unfold fish_argument. destruct H as [| t v ts vs Ht H]; [reflexivity |].
  assert (exists r, join [SP] (t :: ts) = t ++ r /\ frest r vs) as (r & E & R).
  { destruct ts as [| t' ts]; [inversion H; subst; exists []; split; [now rewrite app_nil_r | constructor] |].
    exists ([SP] ++ join [SP] (t' :: ts)). split; [reflexivity |]. apply frest_join; [apply fsep_sp | exact H | discriminate]. }
  rewrite E, Ht. cbn [wval app]. now rewrite (frest_read _ _ R).
Qed.

(** ** Candidates *)
Lemma candidate_text x : ~ In TAB x -> fish_candidate x = (x, []).
Proof.
  induction x as [| c x IH]; intros H; [reflexivity |]. cbn [fish_candidate]. destruct (N.eqb_spec c TAB) as [-> | _]; [exfalso; apply H; now left |].
  rewrite IH by (intros K; apply H; now right). reflexivity.
Qed.
Lemma candidate_both x d : ~ In TAB x -> fish_candidate (x ++ TAB :: d) = (x, d).
Proof.
  induction x as [| c x IH]; intros H; [reflexivity |]. cbn [app fish_candidate]. destruct (N.eqb_spec c TAB) as [-> | _]; [exfalso; apply H; now left |].
  rewrite IH by (intros K; apply H; now right). reflexivity.
Qed.
Lemma lines_concat l : (forall x, In x l -> ~ In LF x) -> output_lines (concat (map (fun x => x ++ [LF]) l)) = l.
Proof.
  unfold output_lines. intros H. induction l as [| x l IH]; [reflexivity |]. cbn [map concat]. rewrite <- app_assoc. cbn [app].
  rewrite split_first by (apply H; now left). cbn [removelast].
  destruct (split_c LF (concat (map (fun x0 => x0 ++ [LF]) l))) as [| y ys] eqn:E; [exfalso; exact (split_c_nonnil _ _ E) |].
  f_equal. apply IH. intros z Hz. apply H. now right.
Qed.

(** ** Functions *)
Fixpoint continued (ls : list str) : list str :=
  match ls with
  | [] => []
  | [l] => [l]
  | l :: ls' => (l ++ [SP; BS]) :: continued ls'
  end.
Lemma join_continued ls : join [SP; BS; LF] ls = join [LF] (continued ls).
Proof.
  induction ls as [| l ls IH]; [reflexivity |]. destruct ls as [| l' ls]; [reflexivity |]. rewrite join_cons, IH.
  change (continued (l :: l' :: ls)) with ((l ++ [SP; BS]) :: continued (l' :: ls)).
  destruct (continued (l' :: ls)) as [| y ys] eqn:E; [destruct ls; discriminate |]. rewrite join_cons, <- app_assoc. reflexivity.
Qed.
Definition fish_lines (format : str) (lines : list (list str)) : list str :=
  (s "printf " ++ format ++ [SP; BS]) :: continued (map (fun ts => s "  " ++ join [SP] ts) lines).
Lemma continued_cons l ls : ls <> [] -> continued (l :: ls) = (l ++ [SP; BS]) :: continued ls.
Proof. destruct ls; [contradiction | reflexivity]. Qed.
Lemma join_concat sep p ls : join sep (p :: ls) = p ++ concat (map (fun l => sep ++ l) ls).
Proof.
  revert p. induction ls as [| l ls IH]; intros p; [cbn; now rewrite app_nil_r |]. rewrite join_cons, IH. cbn [map concat]. now rewrite <- app_assoc.
Qed.
Lemma continued_indented lines : Forall (fun ts => ts <> [] /\ Forall text_ok ts) lines ->
  map (indent_line 2) (continued (map (fun ts => s "  " ++ join [SP] ts) lines)) = continued (map (fun ts => s "    " ++ join [SP] ts) lines).
Proof.
  induction 1 as [| ts lines (Hn & Hts) Hl IH]; [reflexivity |]. destruct lines as [| ts' lines].
  - cbn [map continued]. now rewrite line_indented.
  - cbn [map] in IH |- *. rewrite (continued_cons (s "  " ++ join [SP] ts)), (continued_cons (s "    " ++ join [SP] ts)) by discriminate. cbn [map]. f_equal; [| exact IH].
    destruct (join_first ts Hts Hn) as (c & q & E & Hc & _). unfold indent_line.
    assert (forallb is_space ((s "  " ++ join [SP] ts) ++ [SP; BS]) = false) as ->; [| reflexivity].
    rewrite !forallb_app, E. cbn [forallb]. rewrite Hc. now rewrite !andb_false_r.
Qed.
Lemma continued_ok lines : Forall (fun ts => ts <> [] /\ Forall text_ok ts) lines ->
  Forall line_ok (continued (map (fun ts => s "  " ++ join [SP] ts) lines)).
Proof.
  induction 1 as [| ts lines (Hn & Hts) Hl IH]; [constructor |]. destruct lines as [| ts' lines].
  - cbn [map continued]. constructor; [now apply lines_ok | constructor].
  - cbn [map] in IH |- *. rewrite continued_cons by discriminate. constructor; [| exact IH].
    destruct (lines_ok ts Hts Hn) as (H1 & H2 & H3). destruct (join_first ts Hts Hn) as (c & q & E & Hc & Hh). split; [| split].
    + now rewrite one_line_app, H1.
    + rewrite E. change (lstrip_p is_space ((s "  " ++ c :: q) ++ [SP; BS])) with (lstrip_p is_space (c :: q ++ [SP; BS])). cbn [lstrip_p].
      rewrite Hc. cbn [starts_with]. rewrite N.eqb_sym, (proj2 (N.eqb_neq _ _) Hh). reflexivity.
    + apply contains_stop2; [reflexivity | exact H3 | reflexivity].
Qed.
Lemma continued_filled ls l : (forall l, In l ls -> l <> []) -> In l (continued ls) -> l <> [].
Proof.
  induction ls as [| a ls IH]; intros H Hi; [destruct Hi |]. destruct ls as [| b ls].
  - destruct Hi as [<- | []]. apply H. now left.
  - rewrite continued_cons in Hi by discriminate. destruct Hi as [<- | Hi]; [destruct a; discriminate |].
    apply IH; [| exact Hi]. intros x Hx. apply H. now right.
Qed.
Definition ends_ok (t : str) : Prop := exists q c, t = q ++ [c] /\ is_space c = false.
Lemma join_end ts : ts <> [] -> Forall ends_ok ts -> ends_ok (join [SP] ts).
Proof.
  intros Hn H. induction H as [| t ts (q & c & -> & Hc) Hts IH]; [contradiction |]. destruct ts as [| t' ts]; [exists q, c; auto |].
  destruct IH as (q' & c' & E & Hc'); [discriminate |]. rewrite join_cons, E. exists ((q ++ [c]) ++ [SP] ++ q'), c'. split; [now rewrite <- !app_assoc | exact Hc'].
Qed.
Lemma fish_function_ok name format fv lines vss : lines <> [] ->
  Forall (fun ts => ts <> [] /\ Forall text_ok ts) lines -> Forall (Forall ends_ok) lines ->
  Forall2 (Forall2 fword) lines vss -> fword format fv ->
  line_ok (s "printf " ++ format ++ [SP; BS]) -> 
  exists text, get_code FishFunction (strip_p is_space (join [LF] (fish_lines format lines))) name [] = Ok text /\
    fish_function name text = option_map (fun out => map fish_candidate (output_lines out)) (fish_printf fv (concat vss)).
Proof.
  intros Hn Hl He Hw Hf Hp.
  set (p := s "printf " ++ format).
  assert (forall f : list str -> str, join [LF] ((p ++ [SP; BS]) :: continued (map f lines)) = join [SP; BS; LF] (p :: map f lines)) as J.
  { intros f. rewrite join_continued, continued_cons; [reflexivity |]. destruct lines; [contradiction | discriminate]. }
  set (f2 := fun ts => s "  " ++ join [SP] ts). set (f4 := fun ts => s "    " ++ join [SP] ts).
  set (body := join [LF] (map (indent_line 2) (fish_lines format lines))).
  assert (fish_lines format lines = (p ++ [SP; BS]) :: continued (map f2 lines)) as El by (unfold fish_lines, p; now rewrite <- app_assoc).
  assert (body = s "  " ++ join [SP; BS; LF] (p :: map f4 lines)) as Eb.
  { unfold body. rewrite El. cbn [map]. unfold f2. rewrite continued_indented by exact Hl. fold f4.
    change (indent_line 2 (p ++ [SP; BS])) with ((s "  " ++ p) ++ [SP; BS]).
    rewrite <- J. destruct (continued (map f4 lines)) as [| y ys] eqn:E; [destruct lines as [| a [| b lines]]; [contradiction | discriminate ..] |].
    rewrite !join_cons, <- !app_assoc. reflexivity. }
  assert (exists c, forall f : list str -> str, (forall ts, exists b, f ts = b ++ join [SP] ts) -> is_space c = false /\ exists y, join [SP; BS; LF] (p :: map f lines) = y ++ [c]) as (c & Hc).
  { destruct (exists_last Hn) as (l' & ts & E). 
    rewrite E in He. apply Forall_app in He as [_ Hts]. apply Forall_inv in Hts.
    rewrite E in Hl. apply Forall_app in Hl as [_ Htn]. apply Forall_inv in Htn as [Htn _].
    destruct (join_end ts Htn Hts) as (q & c & Ec & Hc). exists c. intros f Hb. split; [exact Hc |].
    destruct (Hb ts) as (b & Eb'). rewrite E, map_app. cbn [map]. change (p :: map f l' ++ [f ts]) with ((p :: map f l') ++ [f ts]).
    rewrite join_snoc by discriminate. rewrite Eb', Ec. eexists. rewrite !app_assoc. reflexivity. }
  exists (wrapped FishFunction name body). split.
  - destruct (Hc f2) as (Hs & y2 & E2); [intros ts; now exists (s "  ") |]. destruct (Hc f4) as (_ & y4 & E4); [intros ts; now exists (s "    ") |].
    apply (emitted FishFunction name (fish_lines format lines) 112%N (tl (join [LF] (fish_lines format lines))) (s "  " ++ y4) c).
    + unfold fish_lines. constructor; [exact Hp |]. now apply continued_ok.
    + rewrite El. rewrite <- (app_nil_r (continued (map f2 lines))).
      change ((p ++ [SP; BS]) :: continued (map f2 lines) ++ []) with (((p ++ [SP; BS]) :: continued (map f2 lines)) ++ []). rewrite gaps_app; [reflexivity | | discriminate].
      intros l [<- | Hi]; [discriminate |]. apply continued_filled in Hi; [exact Hi |]. intros x Hx. apply in_map_iff in Hx as (ts & <- & _). discriminate.
    + rewrite El, J. destruct lines; reflexivity.
    + reflexivity.
    + fold body. rewrite Eb, E4. now rewrite app_assoc.
    + exact Hs.
    + exists y2. now rewrite El, J.
    + discriminate.
  - unfold fish_function, wrapped.
    replace (s "function " ++ name ++ [LF] ++ body ++ [LF] ++ s "end") with ((s "function " ++ name ++ [LF]) ++ body ++ ([LF] ++ s "end")) by (now rewrite <- !app_assoc).
    rewrite between_app. unfold fish_function_code. rewrite Eb, join_concat.
    assert (frest (concat (map (fun l => [SP; BS; LF] ++ l) (map f4 lines))) (concat vss)) as R.
    { clear - Hw Hl. induction Hw as [| ts vs lines vss Hts H IH]; [constructor |]. inversion Hl as [| ? ? [Hn _] Hl']; subst. cbn [map concat].
      apply frest_app; [| now apply IH]. change ([SP; BS; LF] ++ f4 ts) with ((SP :: BS :: LF :: repeat SP 4) ++ join [SP] ts).
      apply frest_join; [apply fsep_line | exact Hts | exact Hn]. }
    set (r := concat _) in *.
    assert (fish_args (Some FUnquoted) None (s "  " ++ p ++ r) = Some (s "printf" :: fv :: concat vss)) as ->.
    { change (s "  " ++ p ++ r) with (SP :: SP :: (s "printf" ++ ([SP] ++ format) ++ r)).
      change (fish_args (Some FUnquoted) None (SP :: SP :: ?x)) with (fish_args (Some FUnquoted) None x).
      rewrite (fword_quote (s "printf") : forall a b, fword (s "printf") (s "printf")); [cbn [wval app] | intros K; vm_compute in K; intuition discriminate ..].
      apply frest_read. change (SP :: format ++ r) with ([SP] ++ format ++ r). constructor; [apply fsep_sp | exact Hf | exact R]. }
    reflexivity.
Qed.
