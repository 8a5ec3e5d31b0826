(** * Proofs about preprocessor.py. *)
From Verif Require Import Base Preproc SpecPreproc StrUtilsProofs.

Lemma lstrip_app p ws c x : forallb p ws = true -> p c = false ->
  lstrip_p p (ws ++ c :: x) = c :: x.
Proof.
  intros H Hc. induction ws as [|w ws IH]; cbn in *; [rewrite Hc; reflexivity|].
  apply andb_true_iff in H as [-> H]. apply IH; exact H.
Qed.

Lemma lstrip_head p x c y : lstrip_p p x = c :: y -> p c = false.
Proof.
  induction x as [|d x IH]; cbn; [discriminate|]. destruct (p d) eqn:E; [exact IH|].
  intros H; injection H as -> _. exact E.
Qed.

Lemma is_dir_iff d0 d l : is_space d0 = false -> is_dir (d0 :: d) l = true <-> directive (d0 :: d) l.
Proof.
  intros H0. unfold is_dir, directive. rewrite starts_with_app. split.
  - intros [r Hr]. destruct (lstrip_suffix is_space l) as [ws [Hl Hw]].
    exists ws, r. split; [exact Hw|]. rewrite <- Hr. exact Hl.
  - intros [ws [r [Hw ->]]]. exists r. apply lstrip_app; assumption.
Qed.

Lemma dir_excl l :
  (is_dir (s "#ifdef") l = true -> is_dir (s "#else") l = false /\ is_dir (s "#endif") l = false) /\
  (is_dir (s "#else") l = true -> is_dir (s "#ifdef") l = false /\ is_dir (s "#endif") l = false) /\
  (is_dir (s "#endif") l = true -> is_dir (s "#ifdef") l = false /\ is_dir (s "#else") l = false).
Proof.
  unfold is_dir. rewrite !starts_with_app.
  split; [|split]; (intros [r ->]; split; reflexivity).
Qed.

Lemma split_ws_aux_word w x : forall cur, forallb (fun c => negb (is_space c)) w = true ->
  split_ws_aux cur (w ++ x) = split_ws_aux (rev w ++ cur) x.
Proof.
  induction w as [|c w IH]; intros cur H; [reflexivity|]. cbn [forallb] in H.
  apply andb_true_iff in H as [Hc Hw]. cbn [app split_ws_aux].
  apply negb_true_iff in Hc. rewrite Hc. rewrite IH by exact Hw. cbn [rev]. rewrite <- app_assoc. reflexivity.
Qed.

Lemma split_ws_aux_space sp x : forall cur, forallb is_space sp = true -> sp <> [] -> cur <> [] ->
  split_ws_aux cur (sp ++ x) = rev cur :: split_ws_aux [] x.
Proof.
  assert (H0 : forall sp, forallb is_space sp = true -> split_ws_aux [] (sp ++ x) = split_ws_aux [] x).
  { clear. induction sp as [|c sp IH]; cbn; intros H; [reflexivity|].
    apply andb_true_iff in H as [-> H]. apply IH; exact H. }
  intros cur H Hn Hc. destruct sp as [|c sp]; [congruence|]. cbn [forallb] in H.
  apply andb_true_iff in H as [Hs H]. cbn [app split_ws_aux]. rewrite Hs.
  destruct cur as [|d cur]; [congruence|]. rewrite H0 by exact H. reflexivity.
Qed.

Lemma split_ws_second w sp name tail :
  w <> [] -> forallb (fun c => negb (is_space c)) w = true ->
  sp <> [] -> forallb is_space sp = true ->
  name <> [] -> forallb (fun c => negb (is_space c)) name = true ->
  (tail = [] \/ exists c t, tail = c :: t /\ is_space c = true) ->
  nth_error (split_ws (w ++ sp ++ name ++ tail)) 1 = Some name.
Proof.
  intros Hw Hwf Hs Hsf Hn Hnf Ht. unfold split_ws.
  rewrite split_ws_aux_word, app_nil_r by exact Hwf.
  rewrite split_ws_aux_space; [|exact Hsf|exact Hs|intros E; apply (proj1 (rev_nil _)) in E; congruence].
  rewrite split_ws_aux_word, app_nil_r by exact Hnf.
  assert (Hr : rev name <> []) by (intros E; apply (proj1 (rev_nil _)) in E; congruence).
  destruct Ht as [->|[c [t [-> Hc]]]].
  - cbn [split_ws_aux]. destruct (rev name) eqn:E; [congruence|].
    cbn. change (rev l ++ [n]) with (rev (n :: l)). rewrite <- E, rev_involutive. reflexivity.
  - cbn [split_ws_aux]. rewrite Hc. destruct (rev name) eqn:E; [congruence|].
    cbn. change (rev l ++ [n]) with (rev (n :: l)). rewrite <- E, rev_involutive. reflexivity.
Qed.

Lemma ifdef_line_facts l name : ifdef_line l name ->
  starts_with (s "#ifdef") (lstrip_p is_space l) = true /\
  nth_error (split_ws (lstrip_p is_space l)) 1 = Some name.
Proof.
  intros [ws [sp [tail [Hw [Hsp [Hsn [Hn [Hnf [Ht ->]]]]]]]]].
  assert (E : lstrip_p is_space (ws ++ s "#ifdef" ++ sp ++ name ++ tail)
              = s "#ifdef" ++ sp ++ name ++ tail).
  { change (s "#ifdef" ++ sp ++ name ++ tail) with (35%N :: (s "ifdef" ++ sp ++ name ++ tail)).
    apply lstrip_app; [exact Hw|reflexivity]. }
  rewrite E. split.
  - apply starts_with_app. eexists; reflexivity.
  - apply split_ws_second; try assumption; [discriminate|reflexivity].
Qed.

Lemma mems_in_dec n defines : mems n defines = if in_dec str_eq_dec n defines then true else false.
Proof.
  destruct (in_dec str_eq_dec n defines) as [H|H]; [apply mems_In; exact H|apply mems_false; exact H].
Qed.

Lemma preprocess_doc defines d : forall stack out rest, wf d ->
  preprocess_loop defines stack out (render d ++ rest) =
  preprocess_loop defines stack
    (out ++ (if forallb (fun b => b) stack then select defines d else [])) rest.
Proof.
  induction d as [|l d IHd|i n y IHy e d IHd|i n y IHy el no IHno e d IHd];
    intros stack out rest Hwf.
  - cbn [render select app]. destruct (forallb _ stack); rewrite app_nil_r; reflexivity.
  - destruct Hwf as [[H1 [H2 H3]] Hd].
    assert (E1 : starts_with (s "#ifdef") (lstrip_p is_space l) = false).
    { apply not_true_iff_false; intros E; apply H1.
      apply (is_dir_iff 35 (s "ifdef")); [reflexivity|exact E]. }
    assert (E2 : starts_with (s "#else") (lstrip_p is_space l) = false).
    { apply not_true_iff_false; intros E; apply H2.
      apply (is_dir_iff 35 (s "else")); [reflexivity|exact E]. }
    assert (E3 : starts_with (s "#endif") (lstrip_p is_space l) = false).
    { apply not_true_iff_false; intros E; apply H3.
      apply (is_dir_iff 35 (s "endif")); [reflexivity|exact E]. }
    cbn [render app preprocess_loop]. rewrite E1, E2, E3. rewrite IHd by exact Hd.
    cbn [select]. destruct (forallb _ stack); [rewrite <- app_assoc|]; reflexivity.
  - destruct Hwf as [Hi [Hy [He Hd]]].
    destruct (ifdef_line_facts i n Hi) as [E1 E2].
    assert (He' : is_dir (s "#endif") e = true) by (apply (is_dir_iff 35 (s "endif")); [reflexivity|exact He]).
    destruct (dir_excl e) as [_ [_ Hex]]. destruct (Hex He') as [Hx1 Hx2].
    unfold is_dir in *.
    cbn [render app preprocess_loop]. rewrite E1, E2.
    rewrite <- app_assoc, IHy by exact Hy.
    cbn [app preprocess_loop]. rewrite Hx1, Hx2, He'. rewrite IHd by exact Hd.
    f_equal. rewrite <- app_assoc. f_equal. cbn [forallb select]. rewrite mems_in_dec.
    destruct (in_dec str_eq_dec n defines); cbn [andb]; destruct (forallb _ stack); reflexivity.
  - destruct Hwf as [Hi [Hy [Hel [Hno [He Hd]]]]].
    destruct (ifdef_line_facts i n Hi) as [E1 E2].
    assert (He' : is_dir (s "#endif") e = true) by (apply (is_dir_iff 35 (s "endif")); [reflexivity|exact He]).
    assert (Hel' : is_dir (s "#else") el = true) by (apply (is_dir_iff 35 (s "else")); [reflexivity|exact Hel]).
    destruct (dir_excl e) as [_ [_ Hex]]. destruct (Hex He') as [Hx1 Hx2].
    destruct (dir_excl el) as [_ [Hex2 _]]. destruct (Hex2 Hel') as [Hy1 Hy2].
    unfold is_dir in *.
    cbn [render app preprocess_loop]. rewrite E1, E2.
    rewrite <- app_assoc, IHy by exact Hy.
    cbn [app preprocess_loop]. rewrite Hy1, Hel'.
    rewrite <- app_assoc, IHno by exact Hno.
    cbn [app preprocess_loop]. rewrite Hx1, Hx2, He'. rewrite IHd by exact Hd.
    f_equal. rewrite <- !app_assoc. f_equal. cbn [forallb select]. rewrite mems_in_dec.
    destruct (in_dec str_eq_dec n defines); cbn [andb negb]; destruct (forallb _ stack);
      cbn [app]; reflexivity.
Qed.

Lemma preprocess_select x defines d : splitlines x = render d -> wf d ->
  preprocess x defines = Ok (concat (select defines d)).
Proof.
  intros E Hwf. unfold preprocess. rewrite E, <- (app_nil_r (render d)).
  rewrite preprocess_doc by exact Hwf. reflexivity.
Qed.

(** ** Lines *)

Lemma splitlines_aux_concat n : forall x cur, (length x <= n)%nat ->
  concat (splitlines_aux cur x) = rev cur ++ x.
Proof.
  induction n as [|n IH]; intros x cur Hn.
  - destruct x; [|cbn in Hn; lia]. cbn. destruct cur; [reflexivity|]. cbn [concat].
    rewrite !app_nil_r. reflexivity.
  - destruct x as [|c x]; [cbn; destruct cur; [reflexivity|]; cbn [concat]; rewrite !app_nil_r; reflexivity|].
    cbn [splitlines_aux]. cbn in Hn. destruct (is_linebreak c).
    + destruct x as [|d x].
      * cbn [concat]. rewrite app_nil_r. reflexivity.
      * destruct (N.eqb c CR && N.eqb d LF)%bool; cbn [concat].
        -- rewrite IH by (cbn in Hn; lia). cbn [rev app]. rewrite <- !app_assoc. reflexivity.
        -- rewrite IH by (cbn in *; lia). cbn [rev app]. rewrite <- !app_assoc. reflexivity.
    + rewrite IH by lia. cbn [rev]. rewrite <- app_assoc. reflexivity.
Qed.

Lemma splitlines_concat x : concat (splitlines x) = x.
Proof. apply (splitlines_aux_concat (length x) x []); lia. Qed.

(** ** Balance *)

Lemma n_dir_snoc d p l : n_dir d (p ++ [l]) = (n_dir d p + if is_dir d l then 1 else 0)%nat.
Proof.
  unfold n_dir. rewrite filter_app, app_length. cbn. destruct (is_dir d l); reflexivity.
Qed.

Lemma prefix_ok_snoc p l : prefix_ok (p ++ [l]) <->
  prefix_ok p /\
  (is_dir (s "#endif") l = true \/ is_dir (s "#else") l = true ->
     n_dir (s "#endif") p < n_dir (s "#ifdef") p)%nat /\
  (is_dir (s "#ifdef") l = true -> 2 <= length (split_ws (lstrip_p is_space l)))%nat.
Proof.
  split.
  - intros [H1 H2]. split; [split|split].
    + intros p' l' q' E. apply (H1 p' l' (q' ++ [l])). rewrite E, <- app_assoc. reflexivity.
    + intros l' Hl'. apply H2. apply in_app_iff; left; exact Hl'.
    + apply (H1 p l []). reflexivity.
    + apply H2. apply in_app_iff; right; left; reflexivity.
  - intros [[H1 H2] [H3 H4]]. split.
    + intros p' l' q' E. destruct q' as [|q0 q'] using rev_ind.
      * apply app_inj_tail in E as [<- <-]. exact H3.
      * replace (p' ++ l' :: q' ++ [q0]) with ((p' ++ l' :: q') ++ [q0]) in E
          by (rewrite <- app_assoc; reflexivity).
        apply app_inj_tail in E as [E _]. apply (H1 p' l' q' E).
    + intros l' Hl'. apply in_app_iff in Hl' as [Hl'|[<-|[]]]; [apply H2; exact Hl'|exact H4].
Qed.

(** What a run of the preprocessor over [rest], having seen [done], means. *)
Definition outcome (ls : list str) (r : res (list str)) : Prop :=
  match r with
  | inr _ => balanced ls
  | inl e =>
      (e = SyntaxError (s "Unclosed #ifdef") /\ prefix_ok ls /\
         (n_dir (s "#endif") ls < n_dir (s "#ifdef") ls)%nat) \/
      (exists p l q, ls = p ++ l :: q /\ prefix_ok p /\
         ((e = SyntaxError (s "#endif without #ifdef") /\ is_dir (s "#endif") l = true /\
             n_dir (s "#endif") p = n_dir (s "#ifdef") p) \/
          (e = SyntaxError (s "#else without #ifdef") /\ is_dir (s "#else") l = true /\
             n_dir (s "#endif") p = n_dir (s "#ifdef") p) \/
          (e = IndexError /\ is_dir (s "#ifdef") l = true /\
             (length (split_ws (lstrip_p is_space l)) < 2)%nat)))
  end.

Lemma preprocess_outcome defines rest : forall done stack out,
  prefix_ok done ->
  (n_dir (s "#endif") done + length stack = n_dir (s "#ifdef") done)%nat ->
  outcome (done ++ rest) (preprocess_loop defines stack out rest).
Proof.
  induction rest as [|l rest IH]; intros done stack out Hok Hst.
  - rewrite app_nil_r. cbn [preprocess_loop]. destruct stack as [|b stack].
    + cbn [length] in Hst. cbn [outcome]. split; [exact Hok|lia].
    + cbn [outcome]. left. split; [reflexivity|]. split; [exact Hok|]. cbn [length] in Hst. lia.
  - cbn [preprocess_loop].
    replace (done ++ l :: rest) with ((done ++ [l]) ++ rest) by (rewrite <- app_assoc; reflexivity).
    pose proof (dir_excl l) as [X1 [X2 X3]]. unfold is_dir in X1, X2, X3.
    destruct (starts_with (s "#ifdef") (lstrip_p is_space l)) eqn:E1.
    { destruct (X1 eq_refl) as [E2 E3].
      destruct (nth_error (split_ws (lstrip_p is_space l)) 1) as [n|] eqn:En.
      - apply IH.
        + apply prefix_ok_snoc. split; [exact Hok|]. split.
          * unfold is_dir. rewrite E2, E3. intros [H|H]; discriminate.
          * intros _. assert (nth_error (split_ws (lstrip_p is_space l)) 1 <> None) by congruence.
            apply nth_error_Some in H. lia.
        + rewrite !n_dir_snoc. unfold is_dir. rewrite E1, E3. cbn [length]. lia.
      - cbn [outcome]. right. exists done, l, rest. rewrite <- app_assoc. split; [reflexivity|].
        split; [exact Hok|]. right; right. split; [reflexivity|]. split; [exact E1|].
        apply nth_error_None in En. lia. }
    destruct (starts_with (s "#else") (lstrip_p is_space l)) eqn:E2.
    { destruct (X2 eq_refl) as [_ E3]. destruct stack as [|b stack].
      - cbn [outcome]. right. exists done, l, rest. rewrite <- app_assoc. split; [reflexivity|].
        split; [exact Hok|]. right; left. split; [reflexivity|]. split; [exact E2|].
        cbn [length] in Hst. lia.
      - apply IH.
        + apply prefix_ok_snoc. split; [exact Hok|]. split.
          * intros _. cbn [length] in Hst. lia.
          * unfold is_dir. rewrite E1. discriminate.
        + rewrite !n_dir_snoc. unfold is_dir. rewrite E1, E3. cbn [length] in *. lia. }
    destruct (starts_with (s "#endif") (lstrip_p is_space l)) eqn:E3.
    { destruct stack as [|b stack].
      - cbn [outcome]. right. exists done, l, rest. rewrite <- app_assoc. split; [reflexivity|].
        split; [exact Hok|]. left. split; [reflexivity|]. split; [exact E3|].
        cbn [length] in Hst. lia.
      - apply IH.
        + apply prefix_ok_snoc. split; [exact Hok|]. split.
          * intros _. cbn [length] in Hst. lia.
          * unfold is_dir. rewrite E1. discriminate.
        + rewrite !n_dir_snoc. unfold is_dir. rewrite E1, E3. cbn [length] in *. lia. }
    apply IH.
    + apply prefix_ok_snoc. split; [exact Hok|]. unfold is_dir. rewrite E1, E2, E3.
      split; [intros [H|H]|]; discriminate.
    + rewrite !n_dir_snoc. unfold is_dir. rewrite E1, E3. lia.
Qed.

Lemma prefix_ok_nil : prefix_ok [].
Proof. split; [intros p l q E; destruct p; discriminate|intros l []]. Qed.

Lemma preprocess_outcome_top x defines : outcome (splitlines x) (preprocess_loop defines [] [] (splitlines x)).
Proof. apply (preprocess_outcome defines (splitlines x) []); [exact prefix_ok_nil|reflexivity]. Qed.

(** The error cases are incompatible with balance. *)
Lemma error_not_balanced ls e : outcome ls (inl e) -> ~ balanced ls.
Proof.
  intros [[_ [_ H]]|[p [l [q [E [_ H]]]]]] [[B1 B2] B3]; [lia|].
  destruct H as [[_ [Hl Hn]]|[[_ [Hl Hn]]|[_ [Hl Hn]]]].
  - specialize (B1 p l q E (or_introl Hl)). lia.
  - specialize (B1 p l q E (or_intror Hl)). lia.
  - assert (Hin : In l ls) by (rewrite E, in_app_iff; right; left; reflexivity).
    specialize (B2 l Hin Hl). lia.
Qed.

Lemma preprocess_ok_iff x defines :
  (exists out, preprocess x defines = Ok out) <-> balanced (splitlines x).
Proof.
  pose proof (preprocess_outcome_top x defines) as H. unfold preprocess.
  destruct (preprocess_loop defines [] [] (splitlines x)) as [e|out] eqn:E; cbn [bind].
  - apply error_not_balanced in H. split; [intros [out Ho]; discriminate|tauto].
  - split; [intros _; exact H|intros _; eexists; reflexivity].
Qed.

Lemma preprocess_error x defines e : preprocess x defines = Err e ->
  (e = SyntaxError (s "Unclosed #ifdef") /\ prefix_ok (splitlines x) /\
     (n_dir (s "#endif") (splitlines x) < n_dir (s "#ifdef") (splitlines x))%nat) \/
  (exists p l q, splitlines x = p ++ l :: q /\ prefix_ok p /\
     ((e = SyntaxError (s "#endif without #ifdef") /\ is_dir (s "#endif") l = true /\
         n_dir (s "#endif") p = n_dir (s "#ifdef") p) \/
      (e = SyntaxError (s "#else without #ifdef") /\ is_dir (s "#else") l = true /\
         n_dir (s "#endif") p = n_dir (s "#ifdef") p) \/
      (e = IndexError /\ is_dir (s "#ifdef") l = true /\
         (length (split_ws (lstrip_p is_space l)) < 2)%nat))).
Proof.
  pose proof (preprocess_outcome_top x defines) as H. unfold preprocess.
  destruct (preprocess_loop defines [] [] (splitlines x)) as [e'|out] eqn:E; cbn [bind]; [|discriminate].
  intros H1; injection H1 as ->. exact H.
Qed.
