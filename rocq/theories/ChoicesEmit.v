(** * Proofs: the code of a function in the script is the given code, indented, if nothing in it is
    taken for a placeholder or a directive. *)
From Verif Require Import Base PyStr StrUtils StrUtilsProofs Preproc SpecPreproc PreprocProofs Shell ShellProofs
  ZshUtils ZshReading Helpers HelpersProofs HelpersMore ShippedProofs.
Open Scope list_scope.

Definition FN : str := s "%FUNCNAME%".
Definition one_line (x : str) : bool := forallb (fun c => negb (is_linebreak c)) x.
Definition line_ok (l : str) : Prop :=
  one_line l = true /\ starts_with [HASH] (lstrip_p is_space l) = false /\ contains FN l = false.

Lemma one_line_app a b : one_line (a ++ b) = one_line a && one_line b.
Proof. apply forallb_app. Qed.
Lemma one_line_no_lf x : one_line x = true -> ~ In LF x.
Proof. unfold one_line. rewrite forallb_forall. intros H Hi. apply H in Hi. discriminate. Qed.

(** ** Placeholders *)
Lemma contains_cons sub c x : contains sub (c :: x) = starts_with sub (c :: x) || contains sub x.
Proof. reflexivity. Qed.
(** [stop]: characters that are not in the placeholder *)
Definition stop (c : N) : bool := negb (memc c FN).
Lemma starts_stop c l r : stop c = true -> forall G, forallb (fun c => negb (stop c)) G = true -> 
  starts_with G (l ++ c :: r) = starts_with G l.
Proof.
  intros Hc. induction l as [| d l IH]; intros G HG; destruct G as [| g G]; cbn [app starts_with]; try reflexivity.
  - cbn in HG. apply andb_prop in HG as [Hg _]. destruct (N.eqb_spec g c) as [-> | _]; [rewrite Hc in Hg; discriminate | reflexivity].
  - cbn in HG. apply andb_prop in HG as [_ HG]. now rewrite (IH G HG).
Qed.
Lemma contains_stop c l r : stop c = true -> contains FN (l ++ c :: r) = contains FN l || contains FN r.
Proof.
  intros Hc. induction l as [| d l IH].
  - cbn [app contains]. rewrite (starts_stop c [] r Hc FN eq_refl : starts_with FN (c :: r) = starts_with FN []). reflexivity.
  - cbn [app]. rewrite !contains_cons, IH. change (d :: l ++ c :: r) with ((d :: l) ++ c :: r).
    rewrite (starts_stop c (d :: l) r Hc FN eq_refl). apply orb_assoc.
Qed.
Lemma contains_stop2 c l r : stop c = true -> contains FN l = false -> contains FN r = false -> contains FN (l ++ c :: r) = false.
Proof. intros Hc H1 H2. rewrite contains_stop by exact Hc. now rewrite H1, H2. Qed.

(** a text in which some characters that are not in the placeholder are written in another way *)
Definition rewrites (f : N -> str) : Prop :=
  forall c, f c = [c] \/ (stop c = true /\ forallb stop (f c) = true /\ f c <> []).
Lemma starts_rewritten f x : rewrites f -> forall G, forallb (fun c => negb (stop c)) G = true ->
  starts_with G (concat (map f x)) = true -> starts_with G x = true.
Proof.
  intros Hf. induction x as [| c x IH]; intros G HG H; [exact H |].
  destruct G as [| g G]; [reflexivity |]. cbn in HG. apply andb_prop in HG as [Hg HG]. cbn [map concat] in H.
  destruct (Hf c) as [E | (Hc & Ha & Hn)].
  - rewrite E in H. cbn [app starts_with] in *. apply andb_prop in H as [H1 H2]. now rewrite H1, (IH G HG H2).
  - destruct (f c) as [| d y]; [contradiction |]. cbn [app starts_with] in H. cbn in Ha. apply andb_prop in Ha as [Hd _].
    apply andb_prop in H as [H1 _]. apply N.eqb_eq in H1. subst d. rewrite Hd in Hg. discriminate.
Qed.
Lemma contains_skip y x : forallb stop y = true -> contains FN (y ++ x) = contains FN x.
Proof.
  induction y as [| c y IH]; intros H; [reflexivity |]. cbn in H. apply andb_prop in H as [Hc H].
  change ((c :: y) ++ x) with ([] ++ c :: (y ++ x)). rewrite contains_stop by exact Hc. rewrite IH by exact H. reflexivity.
Qed.
Lemma contains_rewritten f x : rewrites f -> contains FN x = false -> contains FN (concat (map f x)) = false.
Proof.
  intros Hf. induction x as [| c x IH]; intros H; [exact H |].
  rewrite contains_cons in H. apply orb_false_elim in H as [H1 H2]. cbn [map concat].
  destruct (Hf c) as [E | (Hc & Ha & Hn)].
  - rewrite E. cbn [app]. rewrite contains_cons, (IH H2), orb_false_r.
    destruct (starts_with FN (c :: concat (map f x))) eqn:Es; [| reflexivity]. exfalso.
    assert (starts_with FN (concat (map f (c :: x))) = true) as K by (cbn [map concat]; rewrite E; exact Es).
    apply (starts_rewritten f (c :: x) Hf FN eq_refl) in K. congruence.
  - rewrite contains_skip by exact Ha. now apply IH.
Qed.
Lemma replace_rewrites c r : stop c = true -> forallb stop r = true -> r <> [] -> rewrites (fun d => if N.eqb d c then r else [d]).
Proof. intros H1 H2 H3 d. destruct (N.eqb_spec d c) as [-> | _]; [right | left]; auto. Qed.
Lemma replace_c_map c r x : replace_c c r x = concat (map (fun d => if N.eqb d c then r else [d]) x).
Proof. induction x as [| d x IH]; [reflexivity |]. cbn [replace_c map concat]. rewrite IH. now destruct (N.eqb d c). Qed.
Lemma contains_replace c r x : stop c = true -> forallb stop r = true -> r <> [] -> contains FN x = false -> contains FN (replace_c c r x) = false.
Proof. intros. rewrite replace_c_map. apply contains_rewritten; [now apply replace_rewrites | assumption]. Qed.
Lemma contains_around c d x : stop c = true -> stop d = true -> contains FN x = false -> contains FN (c :: x ++ [d]) = false.
Proof.
  intros Hc Hd H. change (c :: x ++ [d]) with ([] ++ c :: (x ++ [d])). rewrite contains_stop by exact Hc.
  change (x ++ [d]) with (x ++ d :: []). rewrite contains_stop by exact Hd. now rewrite H.
Qed.
Lemma contains_quote x : contains FN x = false -> contains FN (quote x) = false.
Proof.
  intros H. unfold quote, quote_gen. cbn [negb andb]. rewrite andb_false_r. cbn iota.
  destruct (needs_quote x); [| exact H]. cbn [negb].
  destruct (memc SQ x); cbn [negb]; [| now apply contains_around].
  destruct (memc DQ x); cbn [negb]; apply contains_around; try reflexivity.
  - now apply contains_replace.
  - now repeat apply contains_replace.
Qed.
Lemma contains_escape x : contains FN x = false -> contains FN (escape_colon x) = false.
Proof. now apply contains_replace. Qed.

(** ** Line breaks *)
Lemma one_line_replace c r x : one_line r = true -> one_line x = true -> one_line (replace_c c r x) = true.
Proof.
  intros Hr. induction x as [| d x IH]; intros H; [reflexivity |]. cbn in H. apply andb_prop in H as [Hd H].
  cbn [replace_c]. destruct (N.eqb d c); [rewrite one_line_app, Hr; now apply IH |]. unfold one_line in *. cbn [forallb]. rewrite Hd. now apply IH.
Qed.
Lemma one_line_around c d x : is_linebreak c = false -> is_linebreak d = false -> one_line x = true -> one_line (c :: x ++ [d]) = true.
Proof. intros Hc Hd H. unfold one_line in *. cbn [forallb]. rewrite forallb_app. cbn [forallb]. now rewrite Hc, Hd, H. Qed.
Lemma one_line_quote x : one_line x = true -> one_line (quote x) = true.
Proof.
  intros H. unfold quote, quote_gen. cbn [negb andb]. rewrite andb_false_r. cbn iota.
  destruct (needs_quote x); [| exact H]. cbn [negb].
  destruct (memc SQ x); cbn [negb]; [| now apply one_line_around].
  destruct (memc DQ x); cbn [negb]; apply one_line_around; try reflexivity.
  - now apply one_line_replace.
  - now repeat apply one_line_replace.
Qed.
Lemma one_line_escape x : one_line x = true -> one_line (escape_colon x) = true.
Proof. now apply one_line_replace. Qed.

(** ** Preprocessing *)
Lemma splitlines_lf l r : one_line l = true -> splitlines (l ++ LF :: r) = (l ++ [LF]) :: splitlines r.
Proof.
  intros H. unfold splitlines. rewrite splitlines_aux_word by exact H. rewrite app_nil_r. cbn [splitlines_aux].
  change (is_linebreak LF) with true. cbn iota. destruct r as [| d r]; [cbn [rev]; now rewrite rev_involutive |].
  change (N.eqb LF CR) with false. cbn [andb rev]. now rewrite rev_involutive.
Qed.
Lemma splitlines_end l : one_line l = true -> splitlines l = match l with [] => [] | _ => [l] end.
Proof.
  intros H. unfold splitlines. rewrite <- (app_nil_r l) at 1. rewrite splitlines_aux_word by exact H. rewrite app_nil_r. cbn [splitlines_aux].
  destruct l as [| c l]; [reflexivity |]. destruct (rev (c :: l)) eqn:E; [cbn in E; now destruct (rev l) |]. rewrite <- E. now rewrite rev_involutive.
Qed.
Lemma lstrip_lf l : starts_with [HASH] (lstrip_p is_space l) = false -> starts_with [HASH] (lstrip_p is_space (l ++ [LF])) = false.
Proof.
  induction l as [| c l IH]; intros H; [reflexivity |]. cbn [app lstrip_p] in *. destruct (is_space c); [now apply IH |]. exact H.
Qed.
Lemma preprocess_plain ls : Forall (fun l => starts_with [HASH] (lstrip_p is_space l) = false) ls -> forall D out,
  preprocess_loop D [] out ls = Ok (out ++ ls).
Proof.
  induction 1 as [| l ls Hl Hls IH]; intros D out; cbn [preprocess_loop]; [now rewrite app_nil_r |].
  apply not_hash_directive in Hl. unfold is_directive, is_dir in Hl. apply orb_false_elim in Hl as [Hl H3]. apply orb_false_elim in Hl as [H1 H2].
  rewrite H1, H2, H3. cbn [forallb]. rewrite IH, <- app_assoc. reflexivity.
Qed.
Lemma splitlines_ok ls : Forall line_ok ls -> Forall (fun l => starts_with [HASH] (lstrip_p is_space l) = false) (splitlines (join [LF] ls)).
Proof.
  induction 1 as [| l ls (H1 & H2 & H3) Hls IH]; [constructor |]. destruct ls as [| l' ls].
  - cbn [join]. rewrite splitlines_end by exact H1. destruct l; repeat constructor. exact H2.
  - change (join [LF] (l :: l' :: ls)) with (l ++ LF :: join [LF] (l' :: ls)). rewrite splitlines_lf by exact H1.
    constructor; [now apply lstrip_lf | exact IH].
Qed.
Lemma preprocess_lines ls D : Forall line_ok ls -> preprocess (join [LF] ls) D = Ok (join [LF] ls).
Proof.
  intros H. unfold preprocess. rewrite preprocess_plain by now apply splitlines_ok. cbn [bind app]. now rewrite splitlines_concat.
Qed.
Lemma contains_lines ls : Forall line_ok ls -> contains FN (join [LF] ls) = false.
Proof.
  induction 1 as [| l ls (H1 & H2 & H3) Hls IH]; [reflexivity |]. destruct ls as [| l' ls]; [exact H3 |].
  change (join [LF] (l :: l' :: ls)) with (l ++ LF :: join [LF] (l' :: ls)). rewrite contains_stop by reflexivity. now rewrite H3, IH.
Qed.

(** ** Empty lines *)
Fixpoint gaps (ls : list str) : bool :=
  match ls with
  | l :: ls' => (match ls' with [] :: [] :: _ => true | _ => false end) || gaps ls'
  | [] => false
  end.
Definition LLL : str := [LF; LF; LF].
Lemma sdel_id x : contains LLL x = false -> strip_double_empty_lines x = x.
Proof.
  induction x as [| a x IH]; intros H; [reflexivity |]. rewrite contains_cons in H. apply orb_false_elim in H as [H1 H2].
  destruct x as [| b [| c x]]; [reflexivity .. |]. rewrite sdel_step. cbn [starts_with LLL] in H1. 
  rewrite (N.eqb_sym a), (N.eqb_sym b), (N.eqb_sym c). rewrite andb_true_r in H1. rewrite <- andb_assoc, H1. f_equal. now apply IH.
Qed.
Lemma contains_lll l r : ~ In LF l -> contains LLL (l ++ LF :: r) = starts_with [LF; LF] r || contains LLL r.
Proof.
  induction l as [| c l IH]; intros H; [reflexivity |]. cbn [app]. rewrite contains_cons, IH by (intros K; apply H; now right).
  cbn [starts_with LLL]. destruct (N.eqb_spec LF c) as [<- | _]; [exfalso; apply H; now left | reflexivity].
Qed.
Lemma no_lll ls : Forall (fun l => ~ In LF l) ls -> gaps ls = false -> contains LLL (join [LF] ls) = false.
Proof.
  induction 1 as [| l ls Hl Hls IH]; intros G; [reflexivity |]. cbn [gaps] in G. apply orb_false_elim in G as [G1 G2].
  destruct ls as [| l1 ls].
  - cbn [join]. clear - Hl. induction l as [| c l IHl]; [reflexivity |]. rewrite contains_cons, IHl by (intros K; apply Hl; now right).
    cbn [starts_with LLL]. destruct (N.eqb_spec LF c) as [<- | _]; [exfalso; apply Hl; now left | reflexivity].
  - change (join [LF] (l :: l1 :: ls)) with (l ++ LF :: join [LF] (l1 :: ls)). rewrite contains_lll by exact Hl. rewrite (IH G2), orb_false_r.
    assert (forall p y, ~ In LF p -> p <> [] -> starts_with [LF; LF] (p ++ y) = false) as K.
    { intros [| c p] y Hp Hn; [contradiction |]. cbn [app starts_with]. destruct (N.eqb_spec LF c) as [<- | _]; [exfalso; apply Hp; now left | reflexivity]. }
    inversion Hls as [| ? ? Hl1 Hls']; subst. destruct l1 as [| c l1].
    + destruct ls as [| l2 ls]; [reflexivity |]. destruct l2 as [| d l2]; [discriminate |].
      change (join [LF] ([] :: (d :: l2) :: ls)) with (LF :: join [LF] ((d :: l2) :: ls)). cbn [starts_with]. rewrite N.eqb_refl. cbn [andb].
      inversion Hls' as [| ? ? Hl2 _]; subst. destruct ls; cbn [join app starts_with];
      (destruct (N.eqb_spec LF d) as [<- | _]; [exfalso; apply Hl2; now left | reflexivity]).
    + destruct ls as [| l2 ls]; [rewrite <- (app_nil_r (join [LF] [c :: l1])); apply K; [exact Hl1 | discriminate] |].
      change (join [LF] ((c :: l1) :: l2 :: ls)) with ((c :: l1) ++ LF :: join [LF] (l2 :: ls)). apply K; [exact Hl1 | discriminate].
Qed.

(** ** The function in the script *)
Lemma rstrip_last p x c : p c = false -> rstrip_p p (x ++ [c]) = x ++ [c].
Proof. intros H. unfold rstrip_p. rewrite rev_app_distr. cbn [rev app lstrip_p]. rewrite H. cbn [rev]. now rewrite rev_involutive. Qed.
Lemma strip_id p c x d : p c = false -> p d = false -> strip_p p (c :: x ++ [d]) = c :: x ++ [d].
Proof. intros H1 H2. unfold strip_p. cbn [lstrip_p]. rewrite H1. apply (rstrip_last p (c :: x) d H2). Qed.

Definition wrapped (k : fclass) (name body : str) : str :=
  match k with
  | ShellFunction => name ++ s "() {" ++ [LF] ++ body ++ [LF] ++ s "}"
  | FishFunction => s "function " ++ name ++ [LF] ++ body ++ [LF] ++ s "end"
  end.
Lemma emitted k name ls c x y d :
  Forall line_ok ls -> gaps ls = false -> 
  join [LF] ls = c :: x -> is_space c = false -> join [LF] (map (indent_line 2) ls) = y ++ [d] -> is_space d = false ->
  (exists z, join [LF] ls = z ++ [d]) -> ls <> [] ->
  get_code k (strip_p is_space (join [LF] ls)) name [] = Ok (wrapped k name (join [LF] (map (indent_line 2) ls))).
Proof.
  intros H G E1 Hc E2 Hd (z & E3) Hn.
  assert (strip_p is_space (join [LF] ls) = join [LF] ls) as ->.
  { unfold strip_p. rewrite E1. cbn [lstrip_p]. rewrite Hc. rewrite <- E1, E3. now apply rstrip_last. }
  unfold get_code.
  assert (replace_s (s "%FUNCNAME%") name (join [LF] ls) = join [LF] ls) as ->.
  { apply contains_none; [| reflexivity]. now apply contains_lines. }
  rewrite preprocess_lines by exact H. cbn [bind].
  assert (Forall (fun l => ~ In LF l) ls) as HL by (eapply Forall_impl; [| exact H]; intros l (K & _); now apply one_line_no_lf).
  rewrite sdel_id by now apply no_lll. rewrite indent_lines_eq, split_join_c; [| exact Hn | now apply Forall_forall].
  rewrite E2, rstrip_last by exact Hd. rewrite <- E2. destruct k; reflexivity.
Qed.
