(** * Proofs for C130 and C131 *)
From Coq Require Import Lia ZifyN ZArith.
From Verif Require Import Base SpecShell SpecBashWords BashWordsProofs SpecExec Exec ExecProofs MimeFile SpecMimeFile.
Open Scope list_scope.

Lemma blank_iff c : is_blank c = true <-> blank c.
Proof. unfold is_blank, blank. rewrite Bool.orb_true_iff, !N.eqb_eq. tauto. Qed.
Lemma lstrip_keep p x : (x <> [] -> p (hd 0%N x) = false) -> lstrip_p p x = x.
Proof. destruct x as [| c x]; intros H; [reflexivity |]. cbn [lstrip_p]. rewrite (H ltac:(discriminate) : p c = false). reflexivity. Qed.
Lemma hd_rev (x : str) d : hd d (rev x) = last x d.
Proof.
  induction x as [| c x _] using rev_ind; [reflexivity |]. rewrite rev_app_distr. cbn. now rewrite last_last.
Qed.
Lemma rstrip_keep p x : (x <> [] -> p (last x 0%N) = false) -> rstrip_p p x = x.
Proof.
  intros H. unfold rstrip_p. rewrite lstrip_keep; [apply rev_involutive |]. intros Hn. rewrite hd_rev. apply H.
  intros ->. now apply Hn.
Qed.
Lemma strip_tidy x : tidy x -> strip_p is_blank x = x.
Proof.
  intros [_ H]. assert (B : forall c, ~ blank c -> is_blank c = false).
  { intros c Hc. destruct (is_blank c) eqn:E; [now apply blank_iff in E | reflexivity]. }
  unfold strip_p. rewrite lstrip_keep by (intros Hn; now apply B, H). apply rstrip_keep. intros Hn. now apply B, H.
Qed.
Lemma read_print l : Forall (fun x => ~ In LF x) l -> read_lines (print_lines l) = l.
Proof.
  unfold read_lines, print_lines. induction 1 as [| x l Hx _ IH]; [reflexivity |]. cbn [flat_map].
  rewrite <- app_assoc. cbn [app]. rewrite read_loop_line by exact Hx. cbn [app]. now rewrite IH.
Qed.
Lemma read_tidy l : Forall tidy l -> read_stripped (print_lines l) = l.
Proof.
  intros H. unfold read_stripped. rewrite read_print by (eapply Forall_impl; [| exact H]; intros x Hx; apply Hx).
  induction H as [| x l Hx _ IH]; [reflexivity |]. cbn [map]. rewrite strip_tidy by exact Hx. now rewrite IH.
Qed.

Lemma until_colon_app a b : ~ In COLON a -> until_colon (a ++ COLON :: b) = (a, Some b).
Proof.
  induction a as [| c a IH]; intros H; cbn [app until_colon]; [reflexivity |].
  destruct (N.eqb_spec c COLON) as [-> |]; [destruct H; now left |]. rewrite IH by (intros K; apply H; now right). reflexivity.
Qed.
Lemma at_last_colon_app a b : ~ In COLON b -> at_last_colon (a ++ COLON :: b) = (a, b).
Proof.
  intros H. unfold at_last_colon. rewrite rev_app_distr. cbn [rev]. rewrite <- app_assoc. cbn [app].
  rewrite until_colon_app by (rewrite <- in_rev; exact H). now rewrite !rev_involutive.
Qed.

Lemma has_infix_iff p x : has_infix p x = true <-> exists u v, x = u ++ p ++ v.
Proof.
  induction x as [| c x IH]; cbn [has_infix].
  - rewrite Bool.orb_false_r, starts_with_app. split.
    + intros [v E]. now exists [], v.
    + intros (u & v & E). symmetry in E. apply app_eq_nil in E as [-> E]. exists v. now rewrite E.
  - rewrite Bool.orb_true_iff, starts_with_app, IH. split.
    + intros [[v E] | (u & v & E)]; [now exists [], v |]. exists (c :: u), v. cbn. now rewrite E.
    + intros ([| d u] & v & E); [left; now exists v |]. right. injection E as _ E. now exists u, v.
Qed.
Lemma has_infix_pad p c0 p' pad x : p = c0 :: p' -> (forall c, In c pad -> c <> c0) -> has_infix p (pad ++ x) = has_infix p x.
Proof.
  intros ->. induction pad as [| c pad IH]; intros H; [reflexivity |]. cbn [app has_infix starts_with].
  destruct (N.eqb_spec c0 c) as [E | _]; [destruct (H c (or_introl eq_refl)); congruence |]. cbn.
  apply IH. intros d Hd. apply H. now right.
Qed.
Lemma directory_pad pad mime : (forall c, In c pad -> c = SP) -> is_directory (pad ++ mime) = is_directory mime.
Proof.
  intros H. unfold is_directory. apply (has_infix_pad _ 105%N (s "node/directory")); [reflexivity |].
  intros c Hc. rewrite (H c Hc). discriminate.
Qed.
Lemma directory_iff mime : is_directory mime = true <-> directory_type mime.
Proof. apply has_infix_iff. Qed.

Lemma decode_cons c x : c <> BS -> decode (c :: x) = c :: decode x.
Proof.
  intros H. destruct x as [| c1 [| c2 [| c3 x]]]; try reflexivity. cbn [decode].
  destruct (N.eqb_spec c BS) as [E | _]; [contradiction | reflexivity].
Qed.
Lemma octal_digits c : (c < 256)%N ->
  is_octal (48 + c / 64) = true /\ is_octal (48 + c / 8 mod 8) = true /\ is_octal (48 + c mod 8) = true /\
  octal (48 + c / 64) (48 + c / 8 mod 8) (48 + c mod 8) = c.
Proof.
  intros H. unfold is_octal, octal. rewrite !Bool.andb_true_iff, !N.leb_le.
  repeat split; zify; Z.div_mod_to_equations; lia.
Qed.
Lemma decode_show u x : ~ In BS x -> (forall c, In c x -> (c < 256)%N) -> decode (show_path u x) = x.
Proof.
  induction x as [| c x IH]; intros Hb Hc; [reflexivity |]. cbn [show_path flat_map]. fold (show_path u x). unfold show_byte.
  assert (IH' : decode (show_path u x) = x) by (apply IH; [intros K; apply Hb; now right | intros d Hd; apply Hc; now right]).
  destruct (u c).
  - destruct (octal_digits c (Hc c (or_introl eq_refl))) as (O1 & O2 & O3 & O4). cbn [app decode].
    rewrite N.eqb_refl, O1, O2, O3, O4, IH'. reflexivity.
  - cbn [app]. rewrite decode_cons by (intros ->; apply Hb; now left). now rewrite IH'.
Qed.
Lemma show_same u x : ~ In BS (show_path u x) -> show_path u x = x.
Proof.
  induction x as [| c x IH]; [reflexivity |]. cbn [show_path flat_map]. fold (show_path u x). unfold show_byte. intros H.
  destruct (u c); [destruct H; now left |]. cbn [app]. rewrite IH; [reflexivity |]. intros K. apply H. now right.
Qed.
Lemma show_printable u x : (forall c, In c x -> u c = false) -> show_path u x = x.
Proof.
  induction x as [| c x IH]; intros H; [reflexivity |]. cbn [show_path flat_map]. fold (show_path u x). unfold show_byte.
  rewrite (H c (or_introl eq_refl)). cbn [app]. rewrite IH by (intros d Hd; apply H; now right). reflexivity.
Qed.
Lemma show_LF u x : u LF = true -> ~ In LF (show_path u x).
Proof.
  intros HL H. apply in_flat_map in H as (c & _ & H). unfold show_byte in H. destruct (u c) eqn:E.
  - destruct H as [H | [H | [H | [H | []]]]]; [discriminate H | ..]; lia.
  - destruct H as [-> | []]. congruence.
Qed.
Lemma show_tidy u f : u LF = true -> good_mime f -> fi_path f <> [] -> ~ blank (hd 0%N (fi_path f)) -> tidy (show_file u f).
Proof.
  intros HL (G1 & G2 & G3 & G4 & G5) Hp Hh. split.
  - unfold show_file. rewrite !in_app_iff. intros [H | [H | [H | H]]].
    + now apply (show_LF u (fi_path f)).
    + destruct H as [H | []]. discriminate H.
    + apply G1 in H. discriminate H.
    + contradiction.
  - intros _. split.
    + unfold show_file. destruct (fi_path f) as [| c x]; [now contradiction Hp |]. cbn [show_path flat_map].
      unfold show_byte at 1. destruct (u c); cbn [app hd]; [| exact Hh]. intros [E | E]; discriminate E.
    + unfold show_file. destruct (exists_last G2) as (m & c & E). rewrite E in *. rewrite last_last in G5.
      rewrite !app_assoc, last_last. exact G5.
Qed.

(** The path that is made of a line *)
Lemma path_back u x : ~ In BS x -> (forall c, In c x -> (c < 256)%N) -> (x <> [] -> last x 0%N <> LF) ->
  (if memc BS (show_path u x) then command_substitution (decode (show_path u x)) else show_path u x) = x.
Proof.
  intros Hb Hc Hl. destruct (memc BS (show_path u x)) eqn:E.
  - rewrite decode_show by assumption. apply rstrip_keep. intros Hn. apply N.eqb_neq. intros K. now apply (Hl Hn).
  - apply show_same. now apply memc_false.
Qed.
Lemma mime_line_right fits u f : good_mime f -> ~ In BS (fi_path f) -> (forall c, In c (fi_path f) -> (c < 256)%N) ->
  (fi_path f <> [] -> last (fi_path f) 0%N <> LF) -> fits (fi_padding f ++ fi_mime f) = fits (fi_mime f) ->
  wanted_file fits f (mime_line fits (show_file u f)).
Proof.
  intros (G1 & G2 & G3 & G4 & G5) Hb Hc Hl Hf. unfold mime_line, show_file. cbn [app].
  rewrite at_last_colon_app.
  - rewrite directory_pad by exact G1. rewrite Hf, path_back by assumption.
    destruct (is_directory (fi_mime f)) eqn:D; cbn [orb].
    + apply a_directory. now apply directory_iff.
    + assert (N0 : ~ directory_type (fi_mime f)) by (rewrite <- directory_iff; congruence).
      destruct (fits (fi_mime f)) eqn:F; [now apply a_file | now apply no_file].
  - rewrite in_app_iff. intros [H | H]; [apply G1 in H; discriminate H | contradiction].
Qed.
Lemma fish_line_right fits f : good_mime f -> fits (fi_padding f ++ fi_mime f) = fits (fi_mime f) ->
  exists part, wanted_file fits f part /\ fish_mime_line fits (fi_path f ++ [COLON] ++ fi_padding f ++ fi_mime f) = print_lines part.
Proof.
  intros (G1 & G2 & G3 & G4 & G5) Hf. unfold fish_mime_line. cbn [app]. rewrite at_last_colon_app.
  - rewrite directory_pad by exact G1. rewrite Hf. destruct (is_directory (fi_mime f)) eqn:D.
    + exists [fi_path f ++ s "/"]. split; [apply a_directory; now apply directory_iff |]. cbn [print_lines flat_map]. now rewrite app_nil_r, app_assoc.
    + assert (N0 : ~ directory_type (fi_mime f)) by (rewrite <- directory_iff; congruence).
      destruct (fits (fi_mime f)) eqn:F.
      * exists [fi_path f]. split; [now apply a_file |]. cbn [print_lines flat_map]. now rewrite app_nil_r.
      * exists []. split; [now apply no_file | reflexivity].
  - rewrite in_app_iff. intros [H | H]; [apply G1 in H; discriminate H | contradiction].
Qed.

(** What is offered in Bash is quoted. *)
Lemma quoted_stands escape x : (forall c, posix_special c = true -> escape c = true) -> ~ In LF x -> stands_for (printf_q escape x) x.
Proof.
  intros He Hl. destruct (units_printf_q escape x) as (us & U1 & U2 & _ & U3); [| exact Hl |].
  - intros c Hc. apply He. cbn in Hc. repeat (destruct Hc as [<- | Hc]; [reflexivity |]). destruct Hc.
  - exists us. split; [exact U1 |]. split; [exact U2 |]. intros c Hc. destruct (posix_special c) eqn:Ep; [| reflexivity].
    apply He in Ep. pose proof (U3 (c, Bare) Hc eq_refl) as E3. cbn [fst] in E3. congruence.
Qed.
Lemma quoted_all escape l : (forall c, posix_special c = true -> escape c = true) -> Forall (fun x => ~ In LF x) l ->
  Forall2 stands_for (map (printf_q escape) l) l.
Proof. intros He. induction 1; cbn [map]; constructor; [now apply quoted_stands | assumption]. Qed.
Lemma filter_Forall {A} (P : A -> Prop) f l : Forall P l -> Forall P (filter f l).
Proof. intros H. apply Forall_forall. intros x Hx. apply filter_In in Hx as [Hx _]. rewrite Forall_forall in H. now apply H. Qed.

Lemma names_right fits u files : u LF = true -> Forall good_mime files -> Forall good_path files ->
  Forall (fun f => fits (fi_padding f ++ fi_mime f) = fits (fi_mime f)) files ->
  wanted_files fits files (flat_map (mime_line fits) (read_stripped (print_files u files))).
Proof.
  intros HL Hm Hp Hf. unfold print_files. rewrite read_tidy.
  - exists (map (fun f => mime_line fits (show_file u f)) files). split.
    + induction files as [| f files IH]; cbn [map]; constructor.
      * inversion Hm; inversion Hp; inversion Hf; subst. destruct H5 as (P1 & P2 & P3 & P4 & P5). now apply mime_line_right.
      * inversion Hm; inversion Hp; inversion Hf; subst. now apply IH.
    + rewrite flat_map_concat_map, map_map. reflexivity.
  - apply Forall_forall. intros x Hx. apply in_map_iff in Hx as (f & <- & Hi). rewrite Forall_forall in Hm, Hp.
    destruct (Hp f Hi) as (P1 & P2 & P3 & P4 & P5). now apply show_tidy; [| apply Hm | |].
Qed.

(** Checks for examples *)
Definition good_mimeb (f : file_info) : bool :=
  forallb (N.eqb SP) (fi_padding f) && negb (str_eqb (fi_mime f) []) && negb (memc COLON (fi_mime f)) && negb (memc LF (fi_mime f)) &&
  negb (is_blank (last (fi_mime f) 0%N)).
Definition good_pathb (f : file_info) : bool :=
  negb (memc BS (fi_path f)) && forallb (fun c => N.ltb c 256) (fi_path f) && negb (str_eqb (fi_path f) []) &&
  negb (is_blank (hd 0%N (fi_path f))) && negb (N.eqb (last (fi_path f) 0%N) LF).
Lemma good_mimes l : forallb good_mimeb l = true -> Forall good_mime l.
Proof.
  intros H. apply Forall_forall. intros f Hf. rewrite forallb_forall in H. specialize (H f Hf). unfold good_mimeb in H.
  rewrite !Bool.andb_true_iff, !Bool.negb_true_iff, forallb_forall, !memc_false, str_eqb_neq in H. destruct H as ((((H1 & H2) & H3) & H4) & H5).
  repeat split; auto; [intros c Hc; symmetry; now apply N.eqb_eq, H1 |]. rewrite <- blank_iff. congruence.
Qed.
Lemma good_paths l : forallb good_pathb l = true -> Forall good_path l.
Proof.
  intros H. apply Forall_forall. intros f Hf. rewrite forallb_forall in H. specialize (H f Hf). unfold good_pathb in H.
  rewrite !Bool.andb_true_iff, !Bool.negb_true_iff, forallb_forall, !memc_false, str_eqb_neq, N.eqb_neq in H. destruct H as ((((H1 & H2) & H3) & H4) & H5).
  repeat split; auto; [intros c Hc; now apply N.ltb_lt, H2 |]. rewrite <- blank_iff. congruence.
Qed.
Lemma good_mime1 f : good_mimeb f = true -> good_mime f.
Proof. intros H. assert (F : Forall good_mime [f]) by (apply good_mimes; cbn [forallb]; now rewrite H). now inversion F. Qed.
Lemma good_path1 f : good_pathb f = true -> good_path f.
Proof. intros H. assert (F : Forall good_path [f]) by (apply good_paths; cbn [forallb]; now rewrite H). now inversion F. Qed.
