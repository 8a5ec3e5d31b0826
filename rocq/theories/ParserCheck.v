(** * Deciding the conditions on definitions, for the examples beside the theorems. *)
From Verif Require Import Base When Shell Cli SpecCli CliMore BashUtils PatternMore SpecGlob BashParser SpecParser ParserPaths.
Open Scope list_scope.

(** [bad] holds for no two elements at different places. *)
Fixpoint pairwise {A} (bad : A -> A -> bool) (l : list A) : bool :=
  match l with
  | [] => true
  | x :: l' => forallb (fun y => negb (bad x y) && negb (bad y x)) l' && pairwise bad l'
  end.
Lemma pairwise_eq {A} (bad : A -> A -> bool) l : pairwise bad l = true ->
  forall x y, In x l -> In y l -> bad x y = true -> x = y.
Proof.
  induction l as [| z l IH]; [intros _ x y [] |]. cbn [pairwise]. intros H. apply andb_prop in H as [H1 H2].
  rewrite forallb_forall in H1. intros x y [-> | Hx] [-> | Hy] Hbad; try reflexivity.
  - specialize (H1 y Hy). rewrite Hbad in H1. discriminate.
  - specialize (H1 x Hx). rewrite Hbad, andb_false_r in H1. discriminate.
  - now apply IH.
Qed.
Definition overlap (a b : list str) : bool := existsb (fun x => existsb (str_eqb x) b) a.
Lemma overlap_In a b x : In x a -> In x b -> overlap a b = true.
Proof.
  intros Ha Hb. apply existsb_exists. exists x. split; [exact Ha |]. apply existsb_exists. exists x. split; [exact Hb |].
  now destruct (str_eqb_spec x x).
Qed.

Definition prefixes (x : str) : list str := map (fun n => firstn n x) (seq 0 (S (List.length x))).
Lemma prefixes_In x y : is_prefix x y -> In x (prefixes y).
Proof.
  intros (t & ->). apply in_map_iff. exists (List.length x). split.
  - rewrite firstn_app, firstn_all, Nat.sub_diag. apply app_nil_r.
  - apply in_seq. rewrite app_length. lia.
Qed.
(** No part of [x] that reaches to its end is a number. *)
Definition no_number (x : str) : bool :=
  forallb (fun n => match py_int (skipn n x) with None => true | Some _ => false end) (seq 0 (S (List.length x))).
Lemma no_numbers (P Q : str -> Prop) : (forall x, P x -> no_number x = true) -> no_long_numbers py_int P Q.
Proof.
  intros H l Hl _ p (_ & _ & Hn & _) u Hu. exfalso. apply (Hn u Hu). specialize (H _ (Hl _ Hu)).
  unfold no_number in H. rewrite forallb_forall in H. specialize (H (List.length p)).
  rewrite skipn_app, skipn_all, Nat.sub_diag in H. cbn [skipn app] in H.
  destruct (py_int u); [| reflexivity]. discriminate H. apply in_seq. rewrite app_length. lia.
Qed.

(** ** Commands *)
Definition names_of (c sub : cmd) : list str :=
  c_prog sub :: c_aliases sub ++
  (if xbool_eqb (c_abbrev_cmds sub) XFalse then [] else
   filter (fun x => nonempty x && forallb (fun d => str_eqb (c_prog d) (c_prog sub) || negb (starts_with x (c_prog d))) (subs c))
     (prefixes (c_prog sub))).
Lemma names_of_In c sub x : names c sub x -> In x (names_of c sub).
Proof.
  intros [-> | [H | (Ha & Hx & Hp & Hu)]]; [now left | right; apply in_or_app; now left |].
  right. apply in_or_app. right. destruct (c_abbrev_cmds sub); [cbn [xbool_eqb] | now destruct Ha | cbn [xbool_eqb]].
  all: apply filter_In; split; [now apply prefixes_In |]; apply andb_true_iff; split; [now destruct x |];
    apply forallb_forall; intros d Hd; apply orb_true_iff; destruct (str_eqb_spec (c_prog d) (c_prog sub)) as [E | Hn]; [now left | right];
    apply negb_true_iff; destruct (starts_with x (c_prog d)) eqn:E; [| reflexivity]; exfalso; apply (Hu d Hd Hn); now apply starts_with_app.
Qed.
Definition passes_onb (c : cmd) : bool := negb (xbool_eqb (c_inherit c) XFalse).
Lemma passes_onb_iff c : passes_onb c = true <-> passes_on c.
Proof. unfold passes_onb, passes_on. destruct (c_inherit c); cbn; split; congruence. Qed.
Definition good_nameb (x : str) : bool := nonempty x && forallb name_char x.

Definition tame_commands_check (root : cmd) : bool :=
  forallb (fun '(_, c) =>
    forallb (fun sub => forallb good_nameb (c_prog sub :: c_aliases sub)) (subs c) &&
    pairwise (fun d1 d2 => passes_onb d1 && starts_with (c_prog d1) (c_prog d2)) (subs c) &&
    pairwise (fun d1 d2 => overlap (names_of c d1) (names_of c d2)) (subs c) &&
    forallb (fun sub => forallb no_number (names_of c sub)) (subs c)) (visit_commandlines [] root).
Lemma tame_commands_ok root : tame_commands_check root = true -> tame_commands root.
Proof.
  intros H. unfold tame_commands_check in H. rewrite forallb_forall in H.
  assert (H' : forall ps c, located root ps c ->
    forallb (fun sub => forallb good_nameb (c_prog sub :: c_aliases sub)) (subs c) = true /\
    pairwise (fun d1 d2 => passes_onb d1 && starts_with (c_prog d1) (c_prog d2)) (subs c) = true /\
    pairwise (fun d1 d2 => overlap (names_of c d1) (names_of c d2)) (subs c) = true /\
    forallb (fun sub => forallb no_number (names_of c sub)) (subs c) = true).
  { intros ps c Hl. assert (Hin : In (ps, c) (visit_commandlines [] root)) by (apply visit_iff; exists ps; now rewrite app_nil_r).
    specialize (H _ Hin). cbn beta iota in H. rewrite !andb_true_iff in H. tauto. }
  clear H. split.
  - intros ps c sub x Hl Hs Hx. destruct (H' ps c Hl) as (A & _). rewrite forallb_forall in A. specialize (A sub Hs).
    rewrite forallb_forall in A. assert (B : good_nameb x = true) by (apply A; destruct Hx as [-> | Hx]; [now left | now right]).
    apply andb_prop in B as [B1 B2]. split; [now destruct x | exact B2].
  - intros ps c d1 d2 Hl H1 H2 Hp Hx. destruct (H' ps c Hl) as (_ & A & _). apply (pairwise_eq _ _ A d1 d2 H1 H2).
    apply andb_true_iff. split; [now apply passes_onb_iff | now apply starts_with_app].
  - intros ps c d1 d2 x Hl H1 H2 N1 N2. destruct (H' ps c Hl) as (_ & _ & A & _). apply (pairwise_eq _ _ A d1 d2 H1 H2).
    apply (overlap_In _ _ x); now apply names_of_In.
  - intros ps c sub Hl Hs. apply no_numbers. intros x Hx. destruct (H' ps c Hl) as (_ & _ & _ & A).
    rewrite forallb_forall in A. specialize (A sub Hs). rewrite forallb_forall in A. now apply A, names_of_In.
Qed.

(** ** Options *)
Definition considered_words (p : place) : list str :=
  filter (fun x => Nat.leb 3 (List.length x)) (flat_map (fun d => flat_map o_strings (c_options d))
    (snd p :: if passes_onb (snd p) then fst p else [])).
Lemma considered_In p x : In x (considered_words p) -> considered p x.
Proof.
  unfold considered_words. rewrite filter_In, in_flat_map. intros ((d & Hd & Hx) & H3).
  apply in_flat_map in Hx as (o & Ho & Hx). exists d, o. split; [exact Ho |]. split; [exact Hx |]. split; [now apply Nat.leb_le |].
  destruct Hd as [<- | Hd]; [now left |]. right. destruct (passes_onb (snd p)) eqn:E; [| destruct Hd].
  split; [now apply passes_onb_iff | exact Hd].
Qed.
Definition spellings (p : place) (o : opt) : list str :=
  o_strings o ++
  (if xbool_eqb (c_abbrev_opts (snd p)) XFalse then [] else
   flat_map (fun y => filter (fun x => Nat.leb 3 (List.length x) &&
     forallb (fun z => str_eqb z y || negb (starts_with x z)) (considered_words p)) (prefixes y)) (o_strings o)).
Lemma spellings_In p o x : spelling p o x -> In x (spellings p o).
Proof.
  intros [_ [H | (Ha & H3 & y & Hy & Hp & Hu)]]; apply in_or_app; [now left | right].
  assert (E : xbool_eqb (c_abbrev_opts (snd p)) XFalse = false) by (destruct (c_abbrev_opts (snd p)); [reflexivity | now destruct Ha | reflexivity]).
  rewrite E. apply in_flat_map. exists y. split; [exact Hy |]. apply filter_In. split; [now apply prefixes_In |].
  apply andb_true_iff. split; [now apply Nat.leb_le |]. apply forallb_forall. intros z Hz. apply orb_true_iff.
  destruct (str_eqb_spec z y) as [-> | Hn]; [now left | right]. apply negb_true_iff.
  destruct (starts_with x z) eqn:Es; [| reflexivity]. exfalso. apply (Hu z (considered_In p z Hz) Hn). now apply starts_with_app.
Qed.
Definition scope (here : place) : list place := here :: filter (fun p => passes_onb (snd p)) (ancestors (fst here)).
Lemma scope_iff here p : in_scope here p <-> In p (scope here).
Proof.
  unfold in_scope, scope. cbn [In]. rewrite filter_In, passes_onb_iff. split; intros [H | H]; auto.
Qed.
Definition scope_options (here : place) : list (place * opt) :=
  flat_map (fun p => map (fun o => (p, o)) (c_options (snd p))) (scope here).
Lemma scope_options_In here p o x : in_scope here p -> spelling p o x -> In (p, o) (scope_options here).
Proof.
  intros Hp [Ho _]. apply in_flat_map. exists p. split; [now apply scope_iff |]. apply in_map_iff. now exists o.
Qed.
Definition tame_options_check (root : cmd) : bool :=
  forallb (fun here =>
    forallb (fun o => forallb (fun x => forallb (fun d => plain d && negb (N.eqb d EQ)) x) (o_strings o)) (c_options (snd here)) &&
    pairwise (fun a b => overlap (spellings (fst a) (snd a)) (spellings (fst b) (snd b))) (scope_options here)) (visit_commandlines [] root).
Lemma tame_options_ok root : tame_options_check root = true -> tame_options root.
Proof.
  intros H. unfold tame_options_check in H. rewrite forallb_forall in H.
  assert (H' : forall ps c, located root ps c ->
    forallb (fun o => forallb (fun x => forallb (fun d => plain d && negb (N.eqb d EQ)) x) (o_strings o)) (c_options c) = true /\
    pairwise (fun a b => overlap (spellings (fst a) (snd a)) (spellings (fst b) (snd b))) (scope_options (ps, c)) = true).
  { intros ps c Hl. assert (Hin : In (ps, c) (visit_commandlines [] root)) by (apply visit_iff; exists ps; now rewrite app_nil_r).
    specialize (H _ Hin). now apply andb_prop in H. }
  clear H. split.
  - intros ps c o x d Hl Ho Hx Hd. destruct (H' ps c Hl) as (A & _). rewrite forallb_forall in A. specialize (A o Ho).
    rewrite forallb_forall in A. specialize (A x Hx). rewrite forallb_forall in A. specialize (A d Hd).
    apply andb_prop in A as [A1 A2]. split; [exact A1 |]. apply negb_true_iff in A2. now apply N.eqb_neq.
  - intros ps c p1 p2 o1 o2 x Hl H1 H2 S1 S2. destruct (H' ps c Hl) as (_ & A).
    assert (E : (p1, o1) = (p2, o2)); [| now injection E].
    apply (pairwise_eq _ _ A); [now apply (scope_options_In _ _ _ x) .. |].
    apply (overlap_In _ _ x); now apply spellings_In.
Qed.
Definition tame_option_numbers_check (root : cmd) : bool :=
  forallb (fun here => forallb (fun o => forallb no_number (spellings here o)) (c_options (snd here))) (visit_commandlines [] root).
Lemma tame_option_numbers_ok root : tame_option_numbers_check root = true -> tame_option_numbers root.
Proof.
  intros H ps c o Hl Ho. apply no_numbers. intros x Hx. unfold tame_option_numbers_check in H. rewrite forallb_forall in H.
  assert (Hin : In (ps, c) (visit_commandlines [] root)) by (apply visit_iff; exists ps; now rewrite app_nil_r).
  specialize (H _ Hin). cbn [snd] in H. rewrite forallb_forall in H. specialize (H o Ho). rewrite forallb_forall in H.
  now apply H, spellings_In.
Qed.

(** ** Words *)
Definition no_word_check (here : place) (w : str) : bool :=
  forallb (fun a => forallb (fun x => negb (Nat.leb 3 (List.length x)) || negb (str_eqb w x) && negb (starts_with (x ++ [EQ]) w))
    (spellings (fst a) (snd a))) (scope_options here).
Lemma no_word_ok here w : no_word_check here w = true -> no_word here w.
Proof.
  intros H x o (p & Hp & Hs) H3. unfold no_word_check in H. rewrite forallb_forall in H.
  specialize (H _ (scope_options_In here p o x Hp Hs)). cbn [fst snd] in H. rewrite forallb_forall in H.
  specialize (H x (spellings_In p o x Hs)). apply orb_prop in H as [H | H].
  - apply negb_true_iff in H. apply Nat.leb_gt in H. lia.
  - apply andb_prop in H as [H1 H2]. split.
    + intros E. destruct (str_eqb_spec w x); [discriminate | contradiction].
    + intros (t & Et). apply negb_true_iff in H2. assert (starts_with (x ++ [EQ]) w = true); [| congruence].
      apply starts_with_app. now exists t.
Qed.
(** The string itself. *)
Lemma known_string here p o x : In p (scope here) -> In o (c_options (snd p)) -> In x (o_strings o) -> known here x o.
Proof. intros Hp Ho Hx. exists p. split; [now apply scope_iff |]. split; [exact Ho | now left]. Qed.
