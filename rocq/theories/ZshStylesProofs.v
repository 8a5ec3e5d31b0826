(** * Proofs about the lines that switch sorting off. *)
From Verif Require Import Base PyStr Value Cli Generation GenerationProofs ZshStyles SpecZshStyles HelpersMore.
From Coq Require Import Lia.
Open Scope list_scope.

Lemma no_text (P : N -> Prop) (x : str) (f : N -> bool) : forallb f x = true -> (forall c, f c = true -> P c) -> forall c, In c x -> P c.
Proof. intros H Hf c Hc. rewrite forallb_forall in H. auto. Qed.

(** ** Reading patterns *)
Lemma read_pattern_app a b ra rb : read_pattern a = Some ra -> read_pattern b = Some rb -> read_pattern (a ++ b) = Some (ra ++ rb).
Proof.
  revert ra. induction a as [|c a IH]; intros ra Ha Hb.
  - assert (ra = []) as -> by (cbn in Ha; congruence). exact Hb.
  - cbn [read_pattern app] in *. destruct (special c); [discriminate|]. destruct (read_pattern a) as [r|]; [|discriminate].
    rewrite (IH r eq_refl Hb). assert (ra = (if N.eqb c STAR then Any else Just c) :: r) as -> by congruence. reflexivity.
Qed.
Lemma read_simple x : simple x -> read_pattern x = Some (map Just x).
Proof.
  induction x as [|c x IH]; intros H; [reflexivity|]. cbn [read_pattern map]. destruct (H c (or_introl eq_refl)) as (-> & Hs & _).
  rewrite IH by (intros d Hd; apply H; cbn; auto). now rewrite (proj2 (N.eqb_neq _ _) Hs).
Qed.
Lemma fits_text x l w : fits (map Just x ++ l) w <-> exists w', w = x ++ w' /\ fits l w'.
Proof.
  revert w. induction x as [|c x IH]; intros w; cbn [map app].
  - split; [intros H; exists w; auto|intros (w' & -> & H); exact H].
  - split.
    + intros H. inversion H as [|? ? w0 H0|]; subst. apply IH in H0 as (w' & -> & H'). exists w'. auto.
    + intros (w' & -> & H). constructor. apply IH. eauto.
Qed.
Lemma fits_any_iff l w : fits (Any :: l) w <-> exists u w', w = u ++ w' /\ fits l w'.
Proof. split; [intros H; inversion H; subst; eauto|intros (u & w' & -> & H); constructor; exact H]. Qed.
Lemma fits_nil w : fits [] w <-> w = [].
Proof. split; [intros H; inversion H; reflexivity|intros ->; constructor]. Qed.

(** ** Texts between colons *)
Lemma simple_show n : simple (show_nat n).
Proof.
  pose proof (show_nat_digits n) as H. intros c Hc. rewrite forallb_forall in H. apply H in Hc. unfold is_digit in Hc.
  apply andb_true_iff in Hc as [H1 H2]. apply N.leb_le in H1, H2. split; [|split; lia].
  assert (c = 48 \/ c = 49 \/ c = 50 \/ c = 51 \/ c = 52 \/ c = 53 \/ c = 54 \/ c = 55 \/ c = 56 \/ c = 57)%N as Hd by lia.
  clear -Hd. repeat (destruct Hd as [->|Hd]; [vm_compute; reflexivity|]). subst c. vm_compute. reflexivity.
Qed.
Lemma simple_text x : forallb (fun c => negb (special c) && negb (N.eqb c STAR) && negb (N.eqb c COLON)) x = true -> simple x.
Proof.
  intros H c Hc. rewrite forallb_forall in H. apply H in Hc. apply andb_true_iff in Hc as [Hc H3]. apply andb_true_iff in Hc as [H1 H2].
  apply negb_true_iff in H1, H2, H3. apply N.eqb_neq in H2, H3. auto.
Qed.
Lemma simple_app a b : simple a -> simple b -> simple (a ++ b).
Proof. intros Ha Hb c Hc. apply in_app_or in Hc as [Hc|Hc]; auto. Qed.
Lemma simple_colon x : simple x -> ~ In COLON x.
Proof. intros H Hi. apply H in Hi as (_ & _ & E). congruence. Qed.

Lemma first_colon f r u r' : ~ In COLON f -> f ++ COLON :: r = u ++ COLON :: r' ->
  (u = f /\ r = r') \/ exists u', u = f ++ COLON :: u' /\ r = u' ++ COLON :: r'.
Proof.
  revert u. induction f as [|c f IH]; intros u Hf E.
  - destruct u as [|d u]; cbn in E; [left; split; congruence|]. right. exists u. split; [cbn; congruence|congruence].
  - destruct u as [|d u]; cbn in E.
    + exfalso. apply Hf. left. congruence.
    + assert (d = c) as -> by congruence. destruct (IH u) as [[-> ->]|(u' & -> & ->)].
      * intros Hi. apply Hf. now right.
      * congruence.
      * auto.
      * right. exists u'. auto.
Qed.
Lemma both_colon f r u r' : ~ In COLON f -> ~ In COLON u -> f ++ COLON :: r = u ++ COLON :: r' -> f = u /\ r = r'.
Proof.
  intros Hf Hu E. destruct (first_colon f r u r' Hf E) as [[-> ->]|(u' & -> & _)]; [auto|]. exfalso. apply Hu, in_or_app. right. now left.
Qed.
Lemma no_more f u r : ~ In COLON f -> f = u ++ COLON :: r -> False.
Proof. intros Hf ->. apply Hf, in_or_app. right. now left. Qed.

(** the one way in which a pattern fits *)
Lemma one_way f g prog arg tag u v name rest :
  ~ In COLON f -> ~ In COLON g -> ~ In COLON prog -> ~ In COLON arg -> ~ In COLON tag -> ~ In COLON name -> arg <> name ->
  (f ++ COLON :: g ++ COLON :: prog ++ COLON :: arg ++ COLON :: tag = u ++ COLON :: v ++ COLON :: name ++ COLON :: rest <->
   u = f /\ v = g /\ prog = name /\ arg ++ COLON :: tag = rest).
Proof.
  intros Hf Hg Hp Ha Ht Hn Hne. split.
  2: { intros (-> & -> & -> & <-). reflexivity. }
  intros E. apply first_colon in E as [[-> E]|(u1 & -> & E)]; [| |exact Hf].
  - apply first_colon in E as [[-> E]|(v1 & -> & E)]; [| |exact Hg].
    + apply both_colon in E as [-> E]; auto.
    + exfalso. apply first_colon in E as [[-> E]|(v2 & -> & E)]; [| |exact Hp].
      * apply both_colon in E as [E _]; auto.
      * apply first_colon in E as [[-> E]|(v3 & -> & E)]; [| |exact Ha]; exact (no_more _ _ _ Ht E).
  - exfalso. apply first_colon in E as [[-> E]|(u2 & -> & E)]; [| |exact Hg].
    + apply first_colon in E as [[-> E]|(v2 & -> & E)]; [| |exact Hp].
      * apply both_colon in E as [E _]; auto.
      * apply first_colon in E as [[-> E]|(v3 & -> & E)]; [| |exact Ha]; exact (no_more _ _ _ Ht E).
    + apply first_colon in E as [[-> E]|(u3 & -> & E)]; [| |exact Hp].
      * apply first_colon in E as [[-> E]|(v3 & -> & E)]; [| |exact Ha]; exact (no_more _ _ _ Ht E).
      * apply first_colon in E as [[-> E]|(v3 & -> & E)]; [| |exact Ha]; exact (no_more _ _ _ Ht E).
Qed.

(** ** Lines *)
Lemma colon_text t : s ":" ++ t = COLON :: t.
Proof. reflexivity. Qed.
Lemma line_fits prog x f g command arg tag :
  simple prog -> (forall c, In c x -> special c = false /\ c <> STAR) ->
  ~ In COLON f -> ~ In COLON g -> ~ In COLON command -> ~ In COLON arg -> ~ In COLON tag -> arg <> prog ->
  ((exists l, switches_off (s "zstyle ':completion:*:*:" ++ prog ++ s ":" ++ x ++ s "*' sort false") l /\ fits l (context f g command arg tag)) <->
   command = prog /\ exists w, arg ++ s ":" ++ tag = x ++ w).
Proof.
  intros Hp Hx Hf Hg Hc Ha Ht Hne.
  set (t0 := s ":completion:*:*:" ++ prog ++ s ":" ++ x ++ s "*").
  assert (read_pattern t0 = Some (map Just (s ":completion:") ++ Any :: map Just (s ":") ++ Any :: map Just (s ":") ++ map Just prog ++ map Just (s ":") ++ map Just x ++ [Any])) as Er.
  { unfold t0. change (Some (map Just (s ":completion:") ++ Any :: map Just (s ":") ++ Any :: map Just (s ":") ++ map Just prog ++ map Just (s ":") ++ map Just x ++ [Any]))
      with (Some ((map Just (s ":completion:") ++ Any :: map Just (s ":") ++ Any :: map Just (s ":")) ++ (map Just prog ++ (map Just (s ":") ++ (map Just x ++ [Any]))))).
    apply read_pattern_app; [reflexivity|]. apply read_pattern_app; [apply read_simple, Hp|]. apply read_pattern_app; [reflexivity|].
    apply read_pattern_app; [|reflexivity].
    clear -Hx. induction x as [|c x IH]; [reflexivity|]. cbn [read_pattern map]. destruct (Hx c (or_introl eq_refl)) as (-> & Hs).
    rewrite IH by (intros d Hd; apply Hx; cbn; auto). now rewrite (proj2 (N.eqb_neq _ _) Hs). }
  assert (forall l, switches_off (s "zstyle ':completion:*:*:" ++ prog ++ s ":" ++ x ++ s "*' sort false") l <-> read_pattern t0 = Some l) as Hl.
  { intros l. assert (s "zstyle ':completion:*:*:" ++ prog ++ s ":" ++ x ++ s "*' sort false" = s "zstyle '" ++ t0 ++ s "' sort false") as E.
    { unfold t0. change (s "zstyle ':completion:*:*:") with (s "zstyle '" ++ s ":completion:*:*:"). change (s "*' sort false") with (s "*" ++ s "' sort false").
      now rewrite !app_assoc. }
    split.
    - intros (t & Et & Rt). rewrite E in Et. apply app_inv_head, app_inv_tail in Et. now rewrite Et.
    - intros Rt. exists t0. auto. }
  assert (forall w, fits (map Just (s ":completion:") ++ Any :: map Just (s ":") ++ Any :: map Just (s ":") ++ map Just prog ++ map Just (s ":") ++ map Just x ++ [Any]) w <->
    exists u v r, w = s ":completion:" ++ u ++ COLON :: v ++ COLON :: prog ++ COLON :: x ++ r) as Hfit.
  { intros w. rewrite fits_text. split.
    - intros (w1 & -> & H). apply fits_any_iff in H as (u & w2 & -> & H). apply fits_text in H as (w3 & -> & H).
      apply fits_any_iff in H as (v & w4 & -> & H). apply fits_text in H as (w5 & -> & H). apply fits_text in H as (w6 & -> & H).
      apply fits_text in H as (w7 & -> & H). apply fits_text in H as (w8 & -> & H). exists u, v, w8. reflexivity.
    - intros (u & v & r & ->). eexists. split; [reflexivity|]. apply fits_any_iff. exists u. eexists. split; [reflexivity|].
      apply fits_text. eexists. split; [reflexivity|]. apply fits_any_iff. exists v. eexists. split; [reflexivity|].
      apply fits_text. eexists. split; [reflexivity|]. apply fits_text. eexists. split; [reflexivity|].
      apply fits_text. eexists. split; [reflexivity|]. apply fits_text. eexists. split; [reflexivity|].
      apply fits_any_iff. exists r, []. rewrite app_nil_r. split; [reflexivity|constructor]. }
  split.
  - intros (l & Hs & Hfi). apply Hl in Hs. rewrite Er in Hs. assert (l = map Just (s ":completion:") ++ Any :: map Just (s ":") ++ Any :: map Just (s ":") ++ map Just prog ++ map Just (s ":") ++ map Just x ++ [Any]) as -> by congruence.
    apply Hfit in Hfi as (u & v & r & E). unfold context in E. apply app_inv_head in E. rewrite !colon_text in E.
    apply one_way in E as (_ & _ & Ec & E); auto; [|apply simple_colon, Hp]. split; [exact Ec|]. exists r. rewrite colon_text. exact E.
  - intros (-> & w & E). eexists. split; [apply Hl, Er|]. apply Hfit. exists f, g, w. unfold context. rewrite !colon_text in *. rewrite E. reflexivity.
Qed.

Lemma simple_showZ z : simple (show_Z z).
Proof. unfold show_Z. destruct (z <? 0)%Z; [|apply simple_show]. apply (simple_app (s "-")); [apply simple_text; reflexivity|apply simple_show]. Qed.

Lemma app4 (a b c d : str) : a ++ b ++ c ++ d = a ++ (b ++ c) ++ d.
Proof. now rewrite !app_assoc. Qed.
Lemma unsorted_iff root f g command arg tag : simple_tree root ->
  ~ In COLON f -> ~ In COLON g -> ~ In COLON command -> ~ In COLON arg -> ~ In COLON tag -> arg <> c_prog root ->
  (unsorted (zstyles root) (context f g command arg tag) <->
   command = c_prog root /\ exists ps c, located root ps c /\
     ((exists o x w, In o (c_options c) /\ o_nosort o = true /\ In x (o_strings o) /\ arg ++ s ":" ++ tag = (s "option" ++ x ++ s "-") ++ w) \/
      (exists p w, In p (c_positionals c) /\ p_nosort p = true /\ arg ++ s ":" ++ tag = (s "argument-" ++ show_Z (p_number p) ++ s ":") ++ w))).
Proof.
  intros (Hp & _ & Hx) Hf Hg Hc Ha Ht Hne.
  assert (forall x, simple x -> forall e, In e (s "option" ++ x ++ s "-") -> special e = false /\ e <> STAR) as So.
  { intros x Sx e He. assert (simple (s "option" ++ x ++ s "-")) as S1
      by (apply simple_app; [apply simple_text; reflexivity|apply simple_app; [exact Sx|apply simple_text; reflexivity]]).
    destruct (S1 e He) as (H1 & H2 & _). auto. }
  assert (forall z e, In e (s "argument-" ++ show_Z z ++ s ":") -> special e = false /\ e <> STAR) as Sa.
  { intros z e He. apply in_app_or in He as [He|He].
    - assert (simple (s "argument-")) as S1 by (apply simple_text; reflexivity). destruct (S1 e He) as (H1 & H2 & _). auto.
    - apply in_app_or in He as [He|[<-|[]]]; [|split; [reflexivity|discriminate]]. destruct (simple_showZ z e He) as (H1 & H2 & _). auto. }
  assert (forall prog x, s "zstyle ':completion:*:*:" ++ prog ++ s ":option" ++ x ++ s "-*' sort false" =
    s "zstyle ':completion:*:*:" ++ prog ++ s ":" ++ (s "option" ++ x ++ s "-") ++ s "*' sort false") as Eo.
  { intros prog x. change (s ":option") with (s ":" ++ s "option"). change (s "-*' sort false") with (s "-" ++ s "*' sort false"). now rewrite !app_assoc. }
  assert (forall prog x, s "zstyle ':completion:*:*:" ++ prog ++ s ":argument-" ++ x ++ s ":*' sort false" =
    s "zstyle ':completion:*:*:" ++ prog ++ s ":" ++ (s "argument-" ++ x ++ s ":") ++ s "*' sort false") as Ep.
  { intros prog x. change (s ":argument-") with (s ":" ++ s "argument-"). change (s ":*' sort false") with (s ":" ++ s "*' sort false"). now rewrite !app_assoc. }
  unfold unsorted. split.
  - intros (line & l & Hl & Hs & Hfi). unfold zstyles in Hl. apply in_flat_map in Hl as ([ps c] & Hv & Hl). apply visited in Hv. cbn [snd] in Hl.
    unfold get_zstyles in Hl. apply in_app_or in Hl as [Hl|Hl].
    + apply in_flat_map in Hl as (o & Ho & Hl). destruct (o_nosort o) eqn:En; [|destruct Hl]. apply in_map_iff in Hl as (x & <- & Hi).
      rewrite Eo in Hs. destruct (proj1 (line_fits (c_prog root) (s "option" ++ x ++ s "-") f g command arg tag Hp (So x (Hx ps c o x Hv Ho Hi)) Hf Hg Hc Ha Ht Hne)) as (E & w & Ew); [eauto|].
      split; [exact E|]. exists ps, c. split; [exact Hv|]. left. exists o, x, w. auto.
    + apply in_flat_map in Hl as (q & Hq & Hl). destruct (p_nosort q) eqn:En; [|destruct Hl]. destruct Hl as [<-|[]].
      rewrite Ep in Hs. destruct (proj1 (line_fits (c_prog root) (s "argument-" ++ show_Z (p_number q) ++ s ":") f g command arg tag Hp (Sa (p_number q)) Hf Hg Hc Ha Ht Hne)) as (E & w & Ew); [eauto|].
      split; [exact E|]. exists ps, c. split; [exact Hv|]. right. exists q, w. auto.
  - intros (Ec & ps & c & Hv & H). destruct H as [(o & x & w & Ho & En & Hi & E)|(q & w & Hq & En & E)].
    + destruct (proj2 (line_fits (c_prog root) (s "option" ++ x ++ s "-") f g command arg tag Hp (So x (Hx ps c o x Hv Ho Hi)) Hf Hg Hc Ha Ht Hne)) as (l & Hs & Hfi); [eauto|].
      rewrite <- Eo in Hs. eexists _, l. split; [|split; [exact Hs|exact Hfi]].
      unfold zstyles. apply in_flat_map. exists (ps, c). split; [apply visited, Hv|]. unfold get_zstyles. apply in_or_app. left.
      apply in_flat_map. exists o. split; [exact Ho|]. rewrite En. apply in_map_iff. exists x. auto.
    + destruct (proj2 (line_fits (c_prog root) (s "argument-" ++ show_Z (p_number q) ++ s ":") f g command arg tag Hp (Sa (p_number q)) Hf Hg Hc Ha Ht Hne)) as (l & Hs & Hfi); [eauto|].
      rewrite <- Ep in Hs. eexists _, l. split; [|split; [exact Hs|exact Hfi]].
      unfold zstyles. apply in_flat_map. exists (ps, c). split; [apply visited, Hv|]. unfold get_zstyles. apply in_or_app. right.
      apply in_flat_map. exists q. split; [exact Hq|]. rewrite En. left. reflexivity.
Qed.

(** ** Arguments *)
Lemma option_field x y n t w : ~ In COLON x -> y ++ DASH :: show_nat n ++ COLON :: t = x ++ DASH :: w ->
  y = x \/ exists z, y = x ++ s "-" ++ z.
Proof.
  intros Hx. revert y. induction x as [|c x IH]; intros y E.
  - destruct y as [|d y]; [auto|]. right. exists y. change ([] ++ s "-" ++ y) with (DASH :: y). cbn [app] in E. congruence.
  - destruct y as [|d y].
    + exfalso. cbn [app] in E. assert (show_nat n ++ COLON :: t = x ++ DASH :: w) as E' by congruence.
      assert (~ In COLON x) as Hx' by (intros Hi; apply Hx; now right). clear -E' Hx'. pose proof (show_nat_digits n) as D. revert x E' Hx'. induction (show_nat n) as [|e l IHl]; intros x E Hx.
      * destruct x as [|f x]; cbn [app] in E; [discriminate|]. apply Hx. left. congruence.
      * cbn [forallb] in D. apply andb_true_iff in D as [D1 D2]. destruct x as [|f x]; cbn [app] in E.
        -- assert (e = DASH) as -> by congruence. discriminate D1.
        -- apply (IHl D2 x); [congruence|]. intros Hi. apply Hx. now right.
    + cbn [app] in E. assert (d = c) as -> by congruence. destruct (IH (fun Hi => Hx (or_intror Hi)) y) as [->|[z ->]].
      * congruence.
      * auto.
      * right. exists z. reflexivity.
Qed.

Lemma options_unsorted root f g tag y n : simple_tree root -> ~ In COLON f -> ~ In COLON g -> ~ In COLON tag -> ~ In COLON y ->
  (unsorted (zstyles root) (context f g (c_prog root) (option_argument y n) tag) <->
   exists ps c o x, located root ps c /\ In o (c_options c) /\ o_nosort o = true /\ In x (o_strings o) /\ (y = x \/ exists t, y = x ++ s "-" ++ t)).
Proof.
  intros H Hf Hg Ht Hy. pose proof H as (Hp & Hn & Hx).
  assert (~ In COLON (option_argument y n)) as Ha.
  { unfold option_argument. intros Hi. apply in_app_or in Hi as [Hi|Hi]; [revert Hi; apply simple_colon, simple_text; reflexivity|].
    apply in_app_or in Hi as [Hi|[Hi|Hi]]; [auto|discriminate Hi|]. revert Hi. apply simple_colon, simple_show. }
  rewrite unsorted_iff; auto; [|apply simple_colon, Hp|intros E; apply (proj1 Hn (y ++ s "-" ++ show_nat n)); symmetry; exact E].
  split.
  - intros (_ & ps & c & Hl & [(o & x & w & Ho & En & Hi & E)|(q & w & _ & _ & E)]).
    + exists ps, c, o, x. repeat split; try assumption. unfold option_argument in E. rewrite <- !app_assoc in E. apply app_inv_head in E.
      apply (option_field x y n tag w); [apply simple_colon, (Hx ps c o x Hl Ho Hi)|]. exact E.
    + exfalso. discriminate E.
  - intros (ps & c & o & x & Hl & Ho & En & Hi & Hyx). split; [reflexivity|]. exists ps, c. split; [exact Hl|]. left.
    destruct Hyx as [->|[t ->]].
    + exists o, x, (show_nat n ++ s ":" ++ tag). repeat split; try assumption. unfold option_argument. now rewrite <- !app_assoc.
    + exists o, x, (t ++ s "-" ++ show_nat n ++ s ":" ++ tag). repeat split; try assumption. unfold option_argument. now rewrite <- !app_assoc.
Qed.

Lemma show_Z_nat z n : show_Z z = show_nat n <-> z = Z.of_nat n.
Proof.
  unfold show_Z. destruct (Z.ltb_spec z 0) as [Hz|Hz].
  - split; [|lia]. intros E. pose proof (show_nat_digits n) as D. rewrite <- E in D. discriminate D.
  - split; [intros E; apply show_nat_inj in E; lia|intros ->; f_equal; lia].
Qed.
Lemma positionals_unsorted root f g tag n : simple_tree root -> ~ In COLON f -> ~ In COLON g -> ~ In COLON tag ->
  (unsorted (zstyles root) (context f g (c_prog root) (normal_argument n) tag) <->
   exists ps c p, located root ps c /\ In p (c_positionals c) /\ p_nosort p = true /\ p_number p = Z.of_nat n).
Proof.
  intros H Hf Hg Ht. pose proof H as (Hp & Hn & Hx).
  assert (~ In COLON (normal_argument n)) as Ha.
  { unfold normal_argument. intros Hi. apply in_app_or in Hi as [Hi|Hi]; [revert Hi; apply simple_colon, simple_text; reflexivity|].
    revert Hi. apply simple_colon, simple_show. }
  rewrite unsorted_iff; auto; [|apply simple_colon, Hp|intros E; apply (proj2 Hn (s "-" ++ show_nat n)); symmetry; exact E].
  split.
  - intros (_ & ps & c & Hl & [(o & x & w & _ & _ & _ & E)|(q & w & Hq & En & E)]).
    + exfalso. discriminate E.
    + exists ps, c, q. repeat split; try assumption. unfold normal_argument in E. rewrite <- !app_assoc in E. apply app_inv_head in E.
      rewrite !colon_text in E. apply both_colon in E as [E _]; [|apply simple_colon, simple_show|apply simple_colon, simple_showZ].
      apply show_Z_nat. symmetry. exact E.
  - intros (ps & c & q & Hl & Hq & En & E). split; [reflexivity|]. exists ps, c. split; [exact Hl|]. right. exists q, tag. repeat split; try assumption.
    unfold normal_argument. rewrite (proj2 (show_Z_nat _ _) E). now rewrite <- !app_assoc.
Qed.
Lemma rest_sorted root f g tag : simple_tree root -> ~ In COLON f -> ~ In COLON g -> ~ In COLON tag ->
  ~ unsorted (zstyles root) (context f g (c_prog root) rest_arguments tag).
Proof.
  intros H Hf Hg Ht. pose proof H as (Hp & Hn & Hx).
  rewrite unsorted_iff; auto; [|apply simple_colon, Hp|apply simple_colon, simple_text; reflexivity|intros E; apply (proj2 Hn (s "-rest")); symmetry; exact E].
  intros (_ & ps & c & Hl & [(o & x & w & _ & _ & _ & E)|(q & w & Hq & En & E)]).
  - vm_compute in E. discriminate E.
  - unfold rest_arguments in E. change (s "argument-rest") with (s "argument-" ++ s "rest") in E. rewrite <- !app_assoc in E. apply app_inv_head in E.
    rewrite !colon_text in E. apply both_colon in E as [E _]; [|apply simple_colon, simple_text; reflexivity|apply simple_colon, simple_showZ].
    unfold show_Z in E. destruct (p_number q <? 0)%Z; [vm_compute in E; discriminate E|].
    pose proof (show_nat_digits (Z.abs_nat (p_number q))) as D. rewrite <- E in D. discriminate D.
Qed.
(** Typed by another name the program is another command. *)
Lemma alias_sorted root f g command arg tag : simple_tree root -> ~ In COLON f -> ~ In COLON g -> ~ In COLON command -> ~ In COLON arg -> ~ In COLON tag ->
  arg <> c_prog root -> command <> c_prog root -> ~ unsorted (zstyles root) (context f g command arg tag).
Proof. intros H Hf Hg Hc Ha Ht Hne Hd. rewrite unsorted_iff; auto. intros [E _]. auto. Qed.
