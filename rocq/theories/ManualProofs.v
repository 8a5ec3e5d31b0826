(** * Proofs for C139 *)
From Coq Require Import String.
From Verif Require Import Base StrUtils StrUtilsProofs Manual SpecManual.
Open Scope string_scope.
Open Scope list_scope.

Lemma shows_refl x : shows x x.
Proof. exists [], []. now rewrite app_nil_r. Qed.
Lemma shows_in a b c : shows b c -> shows a b -> shows a c.
Proof. intros (x & y & ->) (u & v & ->). exists (u ++ x), (y ++ v). now rewrite !app_assoc. Qed.
Lemma shows_l a b x : shows a x -> shows (a ++ b) x.
Proof. intros (u & v & ->). exists u, (v ++ b). now rewrite !app_assoc. Qed.
Lemma shows_r a b x : shows b x -> shows (a ++ b) x.
Proof. intros (u & v & ->). exists (a ++ u), v. now rewrite !app_assoc. Qed.
Lemma shows_join sep l x : In x l -> shows (join sep l) x.
Proof.
  induction l as [|y l IH]; [intros []|]. intros [-> | H].
  - destruct l; cbn [join]; [apply shows_refl|]. apply shows_l, shows_refl.
  - destruct l as [|z l]; [destruct H|]. change (join sep (y :: z :: l)) with (y ++ sep ++ join sep (z :: l)).
    apply shows_r, shows_r. now apply IH.
Qed.
Lemma shows_concat l x : In x l -> shows (concat l) x.
Proof.
  induction l as [|y l IH]; [intros []|]. cbn [concat]. intros [-> | H]; [apply shows_l, shows_refl | apply shows_r; auto].
Qed.
Lemma shows_bold colors x : shows (bold colors x) x.
Proof.
  destruct colors; cbn [bold]; [|apply shows_refl].
  exists (ESC :: s "[1m"), (ESC :: s "[0m"). reflexivity.
Qed.
Lemma shows_indent page x : shows page (indent (strip x) 4) -> shows_lines page x.
Proof.
  intros H line L (c & C & V). eapply shows_in; [|exact H]. rewrite indent_lines_eq. apply shows_join. apply in_map_iff.
  exists line. split; [|exact L]. unfold indent_line. destruct (forallb is_space line) eqn:E; [|reflexivity].
  rewrite forallb_forall in E. rewrite (E _ C) in V. discriminate.
Qed.
Lemma lstrip_app p u c v : p c = false -> lstrip_p p (u ++ c :: v) = lstrip_p p u ++ c :: v.
Proof. intros E. induction u as [|d u IH]; cbn [app lstrip_p]; [now rewrite E|]. destruct (p d); [exact IH|reflexivity]. Qed.
Lemma rstrip_app x y : ends_visibly x -> rstrip_p is_space (x ++ y) = x ++ rstrip_p is_space y.
Proof.
  intros (z & c & -> & V). unfold rstrip_p. rewrite !rev_app_distr. cbn [rev app]. rewrite lstrip_app by exact V.
  rewrite rev_app_distr. cbn [rev]. now rewrite rev_involutive.
Qed.
Lemma shows_rstrip x d : ends_visibly d -> shows x d -> shows (rstrip_p is_space x) d.
Proof.
  intros (z & c & -> & V) (a & b & ->). rewrite app_assoc. rewrite rstrip_app.
  - exists a, (rstrip_p is_space b). now rewrite <- app_assoc.
  - exists (a ++ z), c. now rewrite app_assoc.
Qed.

(** ** No control sequences *)
Lemma esc_app a b : no_escape a -> no_escape b -> no_escape (a ++ b).
Proof. unfold no_escape. rewrite in_app_iff. tauto. Qed.
Lemma esc_join sep l : no_escape sep -> (forall x, In x l -> no_escape x) -> no_escape (join sep l).
Proof.
  intros S. induction l as [|y l IH]; intros H; [intros []|].
  destruct l as [|z l]; [apply H; now left|]. change (join sep (y :: z :: l)) with (y ++ sep ++ join sep (z :: l)).
  apply esc_app; [apply H; now left|]. apply esc_app; [exact S|]. apply IH. intros x X. apply H. now right.
Qed.
Lemma esc_concat l : (forall x, In x l -> no_escape x) -> no_escape (concat l).
Proof.
  induction l as [|y l IH]; intros H; [intros []|]. cbn [concat]. apply esc_app; [apply H; now left|]. apply IH. intros x X. apply H. now right.
Qed.
Lemma lstrip_in p x c : In c (lstrip_p p x) -> In c x.
Proof. induction x as [|d x IH]; [intros []|]. cbn [lstrip_p]. destruct (p d); [intros H; right; auto | tauto]. Qed.
Lemma rstrip_in p x c : In c (rstrip_p p x) -> In c x.
Proof. unfold rstrip_p. rewrite <- in_rev. intros H. apply lstrip_in in H. now apply in_rev. Qed.
Lemma esc_strip x : no_escape x -> no_escape (strip x).
Proof. intros H E. apply H. unfold strip, strip_p in E. apply rstrip_in in E. now apply lstrip_in in E. Qed.
Lemma split_in c x l d : In l (split_c c x) -> In d l -> In d x.
Proof.
  intros L D. rewrite <- (join_split_c c x). destruct (shows_join [c] _ _ L) as (a & b & ->). rewrite !in_app_iff. tauto.
Qed.
Lemma esc_indent x : no_escape x -> no_escape (indent x 4).
Proof.
  intros H. rewrite indent_lines_eq. apply esc_join; [intros [E | []]; discriminate E|].
  intros y Y. apply in_map_iff in Y as (l & <- & L). assert (no_escape l) by (intros E; apply H; exact (split_in _ _ _ _ L E)).
  unfold indent_line. destruct (forallb is_space l); [assumption|]. apply esc_app; [|assumption].
  apply repeat_notin. discriminate.
Qed.
Ltac lit := apply memc_false; reflexivity.

Definition sections (colors : bool) (e : entry) : list str :=
  [command_section colors e; description_section colors e; example_section colors e;
   output_section colors e; notes_section colors (all_notes e); see_also_section colors e].
Definition page_of (colors : bool) (e : entry) : str :=
  [LF] ++ join [LF; LF] (filter (fun l => match l with [] => false | _ => true end) (sections colors e)) ++ [LF] ++ [LF].

Lemma page_plain e : no_escapes e -> no_escape (page_of false e).
Proof.
  intros (C & S & L & D & O & N & A). unfold page_of.
  assert (T : no_escape tab) by lit.
  apply esc_app; [lit|]. apply esc_app; [|lit]. apply esc_join; [lit|].
  intros x X. apply filter_In in X as (X & _). destruct X as [<- | [<- | [<- | [<- | [<- | [<- | []]]]]]].
  - unfold command_section. cbn [bold]. repeat apply esc_app; assumption || lit.
  - unfold description_section. cbn [bold]. repeat apply esc_app; try (assumption || lit).
    destruct (e_long e) as [[|c l]|] eqn:E; [intros [] | | intros []]. apply esc_app; [lit|]. apply esc_indent, esc_strip. exact (L _ eq_refl).
  - unfold example_section. cbn [bold]. repeat apply esc_app; try lit. now apply esc_indent, esc_strip.
  - unfold output_section. cbn [bold]. repeat apply esc_app; try lit. now apply esc_indent, esc_strip.
  - assert (NN : forall x, In x (all_notes e) -> no_escape x).
    { intros x X. unfold all_notes in X. apply in_app_iff in X as [X | X]; [apply N; apply in_app_iff; now left|].
      destruct (e_implemented e) as [|a more] eqn:E; [destruct X|]. destruct X as [<- | []].
      apply esc_app; [lit|]. apply esc_app; [apply N; apply in_app_iff; right; now left|].
      destruct more as [|b more]; [intros []|]. apply esc_app; [lit|]. apply N. apply in_app_iff. right. right. now left. }
    unfold notes_section. destruct (all_notes e) as [|n ns]; [intros []|]. apply esc_join; [lit|].
    intros x [<- | X]; [lit|]. apply in_map_iff in X as (y & <- & Y). apply esc_app; [exact T|]. apply esc_app; [lit|]. now apply NN.
  - unfold see_also_section. destruct (e_also e) as [|a also] eqn:E; [intros []|].
    intros X. apply rstrip_in in X. revert X. cbn [bold]. apply esc_app; [lit|]. apply esc_app; [lit|]. apply esc_concat.
    intros x X. apply in_map_iff in X as ([u v] & <- & X). destruct (A u v X) as (U & V). cbn [fst snd].
    repeat apply esc_app; assumption || lit.
Qed.

Lemma page_section colors e x : In x (sections colors e) -> x <> [] -> shows (page_of colors e) x.
Proof.
  intros X N. unfold page_of. apply shows_r, shows_l, shows_join. apply filter_In. split; [exact X|].
  destruct x; [congruence|reflexivity].
Qed.
Lemma bold_nonnil colors x y : x <> [] -> bold colors x ++ y <> [].
Proof. destruct colors, x; cbn; congruence. Qed.
Lemma page_shows colors e :
  let page := page_of colors e in
  shows page (e_command e) /\ shows page (e_short e) /\
  (forall long, e_long e = Some long -> long <> [] -> shows_lines page (if colors then e_long_colored e else long)) /\
  shows_lines page (if colors then e_definition_colored e else e_definition e) /\
  shows_lines page (e_output e) /\
  (forall note, In note (e_notes e) -> shows page note) /\
  (List.length (e_implemented e) <= 2 -> forall shell, In shell (e_implemented e) -> shows page shell) /\
  (forall name text, In (name, text) (e_also e) -> is_name name -> ends_visibly text -> shows page name /\ shows page text).
Proof.
  cbv zeta.
  assert (NotesShow : forall note, In note (all_notes e) -> shows (page_of colors e) note).
  { intros note H. apply shows_in with (b := notes_section colors (all_notes e)).
    - unfold notes_section. destruct (all_notes e) as [|n ns] eqn:E; [destruct H|]. rewrite <- E in *.
      apply shows_in with (b := tab ++ s "- " ++ note); [apply shows_r, shows_r, shows_refl|].
      apply shows_join. right. apply in_map_iff. now exists note.
    - apply page_section; [cbn [sections In]; tauto|]. unfold notes_section. destruct (all_notes e) as [|n ns]; [destruct H|].
      cbn [map]. intros E. apply (bold_nonnil colors (s "NOTES") ([LF] ++ join [LF] ((tab ++ s "- " ++ n) :: map (fun note => tab ++ s "- " ++ note) ns))); [discriminate|exact E]. }
  split; [|split; [|split; [|split; [|split; [|split; [|split]]]]]].
  - apply shows_in with (b := command_section colors e); [unfold command_section; apply shows_r, shows_r, shows_r, shows_refl|].
    apply page_section; [cbn [sections In]; tauto|]. apply bold_nonnil. discriminate.
  - apply shows_in with (b := description_section colors e); [unfold description_section; apply shows_r, shows_r, shows_r, shows_l, shows_refl|].
    apply page_section; [cbn [sections In]; tauto|]. apply bold_nonnil. discriminate.
  - intros long E N. apply shows_indent. apply shows_in with (b := description_section colors e).
    + unfold description_section. rewrite E. destruct long as [|c long]; [congruence|]. apply shows_r, shows_r, shows_r, shows_r, shows_r, shows_refl.
    + apply page_section; [cbn [sections In]; tauto|]. apply bold_nonnil. discriminate.
  - apply shows_indent. apply shows_in with (b := example_section colors e); [unfold example_section; apply shows_r, shows_r, shows_refl|].
    apply page_section; [cbn [sections In]; tauto|]. apply bold_nonnil. discriminate.
  - apply shows_indent. apply shows_in with (b := output_section colors e); [unfold output_section; apply shows_r, shows_r, shows_refl|].
    apply page_section; [cbn [sections In]; tauto|]. apply bold_nonnil. discriminate.
  - intros note H. apply NotesShow. unfold all_notes. apply in_app_iff. now left.
  - intros L shell H. destruct (e_implemented e) as [|a [|b [|c l]]] eqn:E; [destruct H| | |cbn in L; lia].
    + destruct H as [<- | []]. eapply shows_in; [|apply NotesShow; unfold all_notes; rewrite E; apply in_app_iff; right; now left].
      apply shows_r, shows_l, shows_refl.
    + eapply shows_in; [|apply NotesShow; unfold all_notes; rewrite E; apply in_app_iff; right; now left].
      destruct H as [<- | [<- | []]]; [apply shows_r, shows_l, shows_refl | apply shows_r, shows_r, shows_r, shows_refl].
  - intros name text H N V.
    assert (NV : ends_visibly name).
    { destruct N as (N & F). destruct (exists_last N) as (y & c & ->). exists y, c. split; [reflexivity|]. apply F. apply in_app_iff. right. now left. }
    assert (SV : forall x, ends_visibly x -> (shows (bold colors name) x \/ x = text) -> shows (see_also_section colors e) x).
    { intros x X Y. unfold see_also_section. destruct (e_also e) as [|a also] eqn:E; [destruct H|]. apply shows_rstrip; [exact X|].
      apply shows_r, shows_r. apply shows_in with (b := tab ++ bold colors name ++ s ": " ++ text ++ [LF]).
      - apply shows_r. destruct Y as [Y | ->]; [now apply shows_l | apply shows_r, shows_r, shows_l, shows_refl].
      - apply shows_concat. apply in_map_iff. now exists (name, text). }
    assert (NE : see_also_section colors e <> []).
    { intros E. destruct (SV name NV (or_introl (shows_bold colors name))) as (a & b & Q). rewrite E in Q.
      destruct NV as (y & c & -> & _). destruct a, y; discriminate Q. }
    split; (apply shows_in with (b := see_also_section colors e); [|apply page_section; [cbn [sections In]; tauto|exact NE]]).
    + apply SV; [exact NV|left; apply shows_bold].
    + apply SV; [exact V|now right].
Qed.

(** ** The list of topics *)
Lemma words_line items n : (forall w, In w items -> is_name w) ->
  filter (fun w : str => match w with [] => false | _ => true end) (split_c SP (repeat SP n ++ join [SP] items)) = items.
Proof.
  intros H. induction n as [|n IH].
  - cbn [repeat app]. destruct items as [|x items]; [reflexivity|]. rewrite split_join_c.
    + revert H. generalize (x :: items). clear. intros l H. induction l as [|y l IH]; [reflexivity|].
      cbn [filter]. destruct (H y (or_introl eq_refl)) as (N & _). destruct y; [congruence|]. f_equal. apply IH. intros w W. apply H. now right.
    + discriminate.
    + intros w W S. destruct (H w W) as (_ & F). specialize (F _ S). discriminate F.
  - cbn [repeat app split_c]. destruct (split_c SP (repeat SP n ++ join [SP] items)) as [|w ws] eqn:E; [|now rewrite N.eqb_refl].
    exfalso. exact (split_c_nonnil _ _ E).
Qed.
Lemma listed names : (forall w, In w names -> is_name w) -> words_in (indent (join_with_wrap [SP] [LF] 40 names []) 4) = names.
Proof.
  intros H. destruct (join_with_wrap_plain [SP] [LF] 40 names []) as (ls & E & H1 & H2 & _). rewrite E. clear E.
  unfold words_in. rewrite split_indent. subst names.
  assert (NL : forall l, In l (map (fun l => [] ++ join [SP] l) ls) -> ~ In LF l).
  { intros l L. apply in_map_iff in L as (items & <- & L). cbn [app]. intros X.
    assert (Q : forall its, (forall w, In w its -> is_name w) -> ~ In LF (join [SP] its)).
    { induction its as [|y its IH]; intros F; [intros []|]. destruct its as [|z its].
      - intros Y. destruct (F y (or_introl eq_refl)) as (_ & G). specialize (G _ Y). discriminate G.
      - change (join [SP] (y :: z :: its)) with (y ++ [SP] ++ join [SP] (z :: its)). rewrite !in_app_iff.
        intros [Y | [[Y | []] | Y]]; [|discriminate Y|revert Y; apply IH; intros w W; apply F; now right].
        destruct (F y (or_introl eq_refl)) as (_ & G). specialize (G _ Y). discriminate G. }
    revert X. apply Q. intros w W. apply H. apply in_concat. now exists items. }
  destruct ls as [|l0 ls].
  - reflexivity.
  - rewrite split_join_c; [|discriminate|exact NL]. rewrite !map_map. clear NL H2.
    revert H. generalize (l0 :: ls). clear. intros ls H. induction ls as [|items ls IH]; [reflexivity|].
    cbn [map concat]. rewrite filter_app, IH by (intros w W; apply H; cbn [concat]; apply in_app_iff; now right). f_equal. cbn [app].
    assert (F : forall w, In w items -> is_name w) by (intros w W; apply H; cbn [concat]; apply in_app_iff; now left).
    unfold indent_line. destruct (forallb is_space (join [SP] items)); [exact (words_line items 0 F) | exact (words_line items _ F)].
Qed.
