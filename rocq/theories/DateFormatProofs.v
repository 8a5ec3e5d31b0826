(** * Proofs about the suggestions for date formats (C135). *)
From Verif Require Import Base PrefixCompleter DateFormat SpecDateFormat.
Open Scope string_scope.
Open Scope list_scope.

Lemma last_char_snoc x c : last_char (x ++ [c]) = [c].
Proof.
  unfold last_char. rewrite app_length. cbn [List.length]. replace (List.length x + 1 - 1) with (List.length x) by lia.
  now rewrite skipn_app, skipn_all, Nat.sub_diag.
Qed.
Lemma suggested_app x l : ~ In TAB x -> suggested (x ++ [TAB] ++ l) = x.
Proof.
  induction x as [| c x IH]; intros H; [reflexivity |]. cbn [app suggested].
  destruct (N.eqb_spec c TAB) as [-> | _]; [exfalso; apply H; now left |]. f_equal. apply IH. intros K. apply H. now right.
Qed.
Lemma single c d : In (c, d) conversions -> exists ch, s c = [ch] /\ ch <> TAB.
Proof.
  assert (forallb (fun '(c, _) => match s c with [ch] => negb (N.eqb ch TAB) | _ => false end) conversions = true) as H by reflexivity.
  intros Hc. apply (proj1 (forallb_forall _ _) H) in Hc. cbv beta iota in Hc. destruct (s c) as [| ch [|]]; try discriminate.
  exists ch. split; [reflexivity |]. now destruct (N.eqb_spec ch TAB).
Qed.
Lemma posix_listed c : In c posix_conversions -> exists c' d, In (c', d) conversions /\ s c' = [c].
Proof.
  assert (forallb (fun c => existsb (fun '(c', _) => str_eqb (s c') [c]) conversions) posix_conversions = true) as H by reflexivity.
  intros Hc. apply (proj1 (forallb_forall _ _) H) in Hc. apply existsb_exists in Hc as ((c' & d) & Hi & E). exists c', d. split; [exact Hi |]. now apply str_eqb_eq.
Qed.

Lemma lines_unfinished x : unfinished x -> ~ In TAB x ->
  (forall line, In line (date_format_lines x) -> exists c, suggested line = x ++ [c] /\ finished (x ++ [c])) /\
  (forall c, In c posix_conversions -> In (x ++ [c]) (map suggested (date_format_lines x))).
Proof.
  intros (y & -> & items & Hi & ->) Ht. unfold date_format_lines. rewrite last_char_snoc. cbn [str_eqb].
  change (str_eqb [PERCENT] (s "%")) with true. cbv iota. set (x := concat (map write_item items) ++ [PERCENT]) in *.
  assert (L : forall c d ch, s c = [ch] -> ch <> TAB -> suggested (x ++ s c ++ [TAB] ++ s d) = x ++ [ch]).
  { intros c d ch E Hc. rewrite app_assoc, E. apply suggested_app. intros K. apply in_app_or in K as [K | [K | []]]; [now apply Ht | now apply Hc]. }
  split.
  - intros line Hl. apply in_map_iff in Hl as ((c & d) & <- & Hc). destruct (single c d Hc) as (ch & E & Hch).
    exists ch. split; [now apply L |]. exists (items ++ [Conversion ch]). split.
    + apply Forall_app. split; [exact Hi |]. now repeat constructor.
    + unfold x. rewrite map_app, concat_app. cbn [map write_item concat]. now rewrite <- app_assoc, app_nil_r.
  - intros c Hc. destruct (posix_listed c Hc) as (c' & d & Hi' & E). apply in_map_iff.
    exists (x ++ s c' ++ [TAB] ++ s d). destruct (single c' d Hi') as (ch & E' & Hch). rewrite E' in E. injection E as ->. split; [now apply L |].
    apply in_map_iff. exists (c', d). auto.
Qed.

Lemma lines_finished x : finished x -> (forall y, x <> y ++ [PERCENT; PERCENT]) -> date_format_lines x = [].
Proof.
  intros (items & Hi & ->) Hp. unfold date_format_lines.
  destruct items as [| i items] using rev_ind; [reflexivity |].
  rewrite map_app, concat_app in *. cbn [map concat] in *. rewrite app_nil_r in *.
  apply Forall_app in Hi as [_ Hi]. inversion Hi as [| ? ? Hi' _]; subst. clear IHitems Hi.
  assert (exists a c, concat (map write_item items) ++ write_item i = a ++ [c] /\ c <> PERCENT) as (a & c & -> & Hc).
  { destruct i as [c | c]; cbn [write_item plain_item] in *; [eauto |].
    exists (concat (map write_item items) ++ [PERCENT]), c. rewrite <- app_assoc. split; [reflexivity |].
    intros ->. now apply (Hp (concat (map write_item items))). }
  rewrite last_char_snoc. destruct (str_eqb_spec [c] (s "%")) as [E | _]; [| reflexivity].
  exfalso. apply Hc. change (s "%") with [PERCENT] in E. now injection E.
Qed.
