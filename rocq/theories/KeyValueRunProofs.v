(** * Proofs about the helpers that complete keys and values in Bash. *)
From Coq Require Import Lia.
From Verif Require Import Base PyStr SpecBashWords BashWords BashWordsProofs SpecPrefix PrefixProofs SpecValueList ValueList ValueListProofs KeyValue Exec ExecProofs SpecKeyValueRun KeyValueRun.
Open Scope list_scope.

Lemma filter_true {A} (p : A -> bool) l : (forall x, p x = true) -> filter p l = l.
Proof. intros H. induction l as [| a l IH]; cbn [filter]; [reflexivity |]. now rewrite H, IH. Qed.
Lemma exists_last_or {A} (l : list A) : l = [] \/ exists l' e, l = l' ++ [e].
Proof. destruct l as [| a l]; [now left | right]. destruct (exists_last (l := a :: l)) as (l' & e & ->); [discriminate |]. now exists l', e. Qed.
(** ** [after_last] *)
Lemma after_last_none chars x : (forall c, In c x -> memc c chars = false) -> after_last chars x = x.
Proof.
  destruct x as [| c x]; intros H; [reflexivity |]. cbn [after_last]. destruct (existsb (fun d => memc d chars) x) eqn:E.
  - apply existsb_exists in E as (d & Hd & E). rewrite H in E by now right. discriminate.
  - now rewrite (H c) by now left.
Qed.
Lemma after_last_app chars a c b : memc c chars = true -> (forall d, In d b -> memc d chars = false) -> after_last chars (a ++ [c] ++ b) = b.
Proof.
  intros Hc Hb. induction a as [| d a IH].
  - cbn [app after_last]. destruct (existsb (fun d => memc d chars) b) eqn:E; [| now rewrite Hc].
    apply existsb_exists in E as (d & Hd & E). rewrite Hb in E by assumption. discriminate.
  - cbn [app after_last] in *. rewrite IH. destruct (existsb (fun d0 => memc d0 chars) (a ++ c :: b)) eqn:E; [reflexivity |].
    exfalso. assert (existsb (fun d0 => memc d0 chars) (a ++ c :: b) = true) as T; [| congruence].
    apply existsb_exists. exists c. split; [apply in_or_app; right; now left | exact Hc].
Qed.
Lemma after_last_behind chars a b : (forall d, In d b -> memc d chars = false) -> after_last chars (a ++ b) = after_last chars a ++ b.
Proof.
  intros Hb. induction a as [| c a IH]; [now apply after_last_none |].
  cbn [app after_last]. rewrite existsb_app.
  assert (existsb (fun d => memc d chars) b = false) as E.
  { destruct (existsb (fun d => memc d chars) b) eqn:E; [| reflexivity]. apply existsb_exists in E as (d & Hd & E). rewrite Hb in E by assumption. discriminate. }
  rewrite E, orb_false_r. destruct (existsb (fun d => memc d chars) a); [exact IH |]. now destruct (memc c chars).
Qed.

(** ** The first separator *)
Lemma before_first_app sep k x : ~ In sep k -> before_first sep (k ++ [sep] ++ x) = k.
Proof.
  induction k as [| c k IH]; intros H; cbn [app before_first]; [now rewrite N.eqb_refl |].
  destruct (N.eqb_spec c sep) as [-> |]; [contradiction H; now left |]. f_equal. apply IH. intros I. apply H. now right.
Qed.
Lemma before_first_none sep k : ~ In sep k -> before_first sep k = k.
Proof.
  induction k as [| c k IH]; intros H; cbn [before_first]; [reflexivity |].
  destruct (N.eqb_spec c sep) as [-> |]; [contradiction H; now left |]. f_equal. apply IH. intros I. apply H. now right.
Qed.
Lemma after_first_app sep k x : ~ In sep k -> after_first sep (k ++ [sep] ++ x) = x.
Proof.
  induction k as [| c k IH]; intros H; cbn [app after_first]; [now rewrite N.eqb_refl |].
  destruct (N.eqb_spec c sep) as [-> |]; [contradiction H; now left |]. apply IH. intros I. apply H. now right.
Qed.
Lemma memc_sep sep k x : memc sep (k ++ [sep] ++ x) = true.
Proof. apply memc_In. apply in_or_app. right. now left. Qed.
Lemma behind_first_app sep k x : ~ In sep k -> behind_first sep (k ++ [sep] ++ x) = x.
Proof. intros H. unfold behind_first. rewrite memc_sep. now apply after_first_app. Qed.
Lemma pair_key sep1 sep2 p : pair_ok sep1 sep2 p -> before_first sep2 (pair_text sep2 p) = fst p.
Proof. destruct p as [k [v |]]; intros (_ & H & _); [now apply before_first_app | now apply before_first_none]. Qed.
Lemma pair_element sep1 sep2 p : sep1 <> sep2 -> pair_ok sep1 sep2 p -> list_element sep1 (pair_text sep2 p).
Proof.
  intros Hs. destruct p as [k [v |]]; intros (H1 & H2 & H3) I; cbn [fst snd pair_text] in *; [| contradiction].
  apply in_app_or in I as [I | [I | I]]; [contradiction | congruence | contradiction].
Qed.

(** ** Which part is replaced *)
Lemma strip_in breaks seps cur us u : written breaks seps cur us -> In u us -> is_break breaks u = memc (fst u) (strip_chars breaks seps cur).
Proof.
  assert (forall c, memc c (filter (fun d => memc d breaks) seps) = memc c breaks && memc c seps) as F.
  { intros c. induction seps as [| d l IH]; [now rewrite andb_false_r |]. cbn [filter]. unfold memc in *. cbn [existsb].
    destruct (existsb (N.eqb d) breaks) eqn:E; cbn [existsb]; rewrite IH; destruct (N.eqb_spec c d) as [-> |]; cbn [orb]; rewrite ?E; cbn; try reflexivity; now rewrite ?andb_true_r, ?andb_false_l. }
  unfold written, begins_quoted, strip_chars. destruct cur as [| c cur]; intros H I; [now rewrite F; apply H |].
  destruct (N.eqb c DQ || N.eqb c SQ); [now rewrite (H u I) | now rewrite F; apply H].
Qed.
Lemma breaks_first breaks us1 us2 n : breaks_at breaks (us1 ++ us2) n -> (forall u, In u us2 -> is_break breaks u = false) -> breaks_at breaks us1 n.
Proof.
  intros B H. destruct n as [n |]; [| intros u Hu; apply B; apply in_or_app; now left].
  destruct B as (l & b & l' & E & Hb & H' & En).
  assert (exists l1, us1 = l ++ [b] ++ l1 /\ l' = l1 ++ us2) as (l1 & -> & ->).
  { clear En H'. revert l E. induction us1 as [| u us1 IH]; intros l E.
    - exfalso. cbn [app] in E. rewrite (H b) in Hb; [discriminate |]. rewrite E. apply in_or_app. right. now left.
    - destruct l as [| u' l].
      + cbn [app] in E. injection E as -> E. exists us1. now split.
      + cbn [app] in E. injection E as <- E. destruct (IH l E) as (l1 & -> & ->). now exists l1. }
  exists l, b, l1. repeat split; try assumption. intros u Hu. apply H'. apply in_or_app. now left.
Qed.
Lemma text_app a b : text (a ++ b) = text a ++ text b.
Proof. apply map_app. Qed.
Lemma after_last_units breaks strip us n : breaks_at breaks us n -> (forall u, In u us -> is_break breaks u = memc (fst u) strip) ->
  text us = firstn (match n with Some k => k | None => 0%nat end) (text us) ++ after_last strip (text us) /\
  (match n with Some k => k | None => 0%nat end <= length us)%nat.
Proof.
  intros B H. destruct n as [n |].
  - destruct B as (l & b & l' & -> & Hb & H' & ->). rewrite !text_app. change (text [b]) with [fst b].
    assert (forall u, In u l' -> memc (fst u) strip = false) as L.
    { intros u Hu. rewrite <- H; [now apply H' |]. apply in_or_app. right. now right. }
    rewrite after_last_app.
    + unfold text. split; [| rewrite app_length; cbn [length app]; lia]. change ([fst b] ++ ?y) with (fst b :: y). rewrite firstn_app, map_length, firstn_all2 by (rewrite map_length; lia).
      replace (S (length l) - length l)%nat with 1%nat by lia. cbn [firstn]. now rewrite <- app_assoc.
    + rewrite <- H; [exact Hb |]. apply in_or_app. right. now left.
    + intros c Hc. apply in_map_iff in Hc as (u & <- & Hu). now apply L.
  - cbn [firstn app]. split; [| lia]. rewrite after_last_none; [reflexivity |]. intros c Hc. apply in_map_iff in Hc as (u & <- & Hu). rewrite <- H by exact Hu. now apply B.
Qed.
Lemma accept_behind breaks strip us1 us2 n r : breaks_at breaks (us1 ++ us2) n -> (forall u, In u us2 -> is_break breaks u = false) ->
  (forall u, In u us1 -> is_break breaks u = memc (fst u) strip) ->
  accepted breaks (us1 ++ us2) (after_last strip (text us1) ++ r) (text us1 ++ r).
Proof.
  intros B H2 H1. exists n. split; [exact B |]. destruct (after_last_units breaks strip us1 n (breaks_first _ _ _ _ B H2) H1) as [E L].
  rewrite text_app, firstn_app. replace (_ - length (text us1))%nat with 0%nat by (unfold text; rewrite map_length; lia).
  cbn [firstn]. rewrite app_nil_r, app_assoc. now rewrite <- E.
Qed.
Lemma text_split us a b : text us = a ++ b -> exists us1 us2, us = us1 ++ us2 /\ text us1 = a /\ text us2 = b.
Proof.
  revert us. induction a as [| c a IH]; intros us E; [now exists [], us |].
  destruct us as [| u us]; [discriminate |]. cbn [text map app] in E. injection E as <- E. destruct (IH us E) as (us1 & us2 & -> & <- & <-).
  now exists (u :: us1), us2.
Qed.

(** ** Lists *)
Section List.
Variables (breaks : str) (sep1 sep2 : N) (cur : str) (us : list (N * how)) (open : bool) (pairs : list (str * option str)).
Hypothesis Hu : units Outside cur = Some (us, open).
Hypothesis Hk : none_kept us.
Hypothesis Hw : written breaks [sep1; sep2] cur us.
Hypothesis Hs : sep1 <> sep2.
Hypothesis Hi : memc sep1 [SP; TAB; LF] = false.
Hypothesis Hl : ~ In LF (text us).
Hypothesis Hp : Forall (pair_ok sep1 sep2) pairs.
Let strip := strip_chars breaks [sep1; sep2] cur.
Let P := complete_pairs sep1 sep2 pairs.

Lemma elements_ok : Forall (list_element sep1) (map (pair_text sep2) pairs).
Proof. apply Forall_map. apply (Forall_impl _ (fun p => pair_element sep1 sep2 p Hs) Hp). Qed.
Lemma typed_keys : map (before_first sep2) (map (pair_text sep2) pairs) = map fst pairs.
Proof. rewrite map_map. apply map_ext_in. intros p I. apply (pair_key sep1). now apply (proj1 (Forall_forall _ _) Hp). Qed.
Lemma strip_seps c : memc c strip = true -> c = sep1 \/ c = sep2.
Proof.
  unfold strip, strip_chars. assert (memc c (filter (fun d => memc d breaks) [sep1; sep2]) = true -> c = sep1 \/ c = sep2) as F.
  { intros H. apply memc_In in H. apply filter_In in H as [[-> | [-> | []]] _]; auto. }
  destruct cur as [| d cur']; [exact F |]. destruct (N.eqb d DQ || N.eqb d SQ); [discriminate | exact F].
Qed.

Lemma last_pair b : ~ In sep1 b -> after_last [sep1] (typed_list sep1 (map (pair_text sep2) pairs) b) = b.
Proof.
  intros H. assert (forall d, In d b -> memc d [sep1] = false) as F by (intros d Hd; apply memc_false; intros [<- | []]; contradiction).
  unfold typed_list. rewrite after_last_behind by exact F. replace (after_last [sep1] _) with (@nil N); [reflexivity |].
  destruct (exists_last_or (map (pair_text sep2) pairs)) as [-> | (l & e & ->)]; [reflexivity |].
  unfold before. rewrite map_app, concat_app. cbn [map concat]. rewrite app_nil_r, app_assoc. symmetry.
  pose proof (after_last_app [sep1] (concat (map (fun e => e ++ [sep1]) l) ++ e) sep1 []) as X. apply X; [apply memc_In; now left | intros d []].
Qed.
Lemma list_keys arrays complete b : text us = P ++ b -> ~ In sep1 b -> ~ In sep2 b ->
  let typed := map fst pairs ++ match b with [] => [] | _ => [b] end in
  Forall2 (fun key reply => accepted breaks us reply (P ++ key))
    (filter (starts_with b) (filter (fun key => negb (mems key (having_keys arrays typed))) (map fst arrays)))
    (list_replies breaks sep1 sep2 arrays complete cur).
Proof.
  intros E H1 H2 typed. destruct (dequote_right breaks cur us open Hu Hk) as (R & _ & B).
  destruct (text_split us P b E) as (us1 & us2 & Eu & E1 & E2).
  assert (forall c, In c b -> memc c strip = false) as Nb.
  { intros c Hc. destruct (memc c strip) eqn:M; [| reflexivity]. apply strip_seps in M as [-> | ->]; contradiction. }
  assert (forall u, In u us2 -> is_break breaks u = false) as N2.
  { intros u I. rewrite (strip_in breaks [sep1; sep2] cur us u Hw) by (rewrite Eu; apply in_or_app; now right). apply Nb. rewrite <- E2. now apply in_map. }
  assert (forall r, accepted breaks us (after_last strip P ++ r) (P ++ r)) as A.
  { intros r. rewrite Eu, <- E1. apply (accept_behind breaks strip us1 us2 (dq_break (dequote breaks cur))).
    - now rewrite <- Eu.
    - exact N2.
    - intros u I. apply (strip_in breaks [sep1; sep2] cur us u Hw). rewrite Eu. apply in_or_app. now left. }
  assert (forall l, Forall2 (fun key reply => accepted breaks us reply (P ++ key)) l (map (app (after_last strip P)) l)) as AA.
  { induction l; constructor; [apply A | assumption]. }
  unfold list_replies. rewrite R. cbv zeta. fold strip. change P with (before sep1 (map (pair_text sep2) pairs)) in E. pose proof E as Et. change (before sep1 ?x ++ b) with (typed_list sep1 x b) in Et.
  destruct (text us) as [| c0 t0] eqn:Tu.
  - assert (P = [] /\ b = []) as [EP ->] by (apply app_eq_nil; symmetry; exact E). assert (typed = []) as ->.
    { unfold typed. rewrite app_nil_r. unfold P, complete_pairs in EP. destruct pairs as [| p l]; [reflexivity |]. cbn in EP. apply app_eq_nil in EP as [EP _]. apply app_eq_nil in EP as [_ EP]. discriminate. }
    pose proof (AA (map fst arrays)) as X. rewrite EP in X. change (after_last strip []) with (@nil N) in X. rewrite (map_ext (app []) (fun x => x)), map_id in X by reflexivity.
    rewrite EP. clear - X. rewrite (filter_true _ (map fst arrays)) by reflexivity. rewrite filter_true by reflexivity. exact X.
  - rewrite Et, (fields sep1 (map (pair_text sep2) pairs) b Hi elements_ok H1) by (rewrite <- Et; exact Hl).
    rewrite map_app, typed_keys. replace (map (before_first sep2) match b with [] => [] | _ => [b] end) with (match b with [] => [] | _ => [b] end)
      by (destruct b; [reflexivity | cbn [map]; now rewrite before_first_none]).
    fold typed. set (remaining := filter _ (map fst arrays)). destruct b as [| c b].
    + unfold typed_list. rewrite app_nil_r. change (before sep1 (map (pair_text sep2) pairs)) with P. 
      assert (N.eqb (last P 0%N) sep1 = true) as ->.
      { apply N.eqb_eq. apply before_last. intros Ep. unfold P, complete_pairs in Et. rewrite Ep in Et. discriminate. }
      rewrite filter_true by reflexivity. apply AA.
    + assert (N.eqb (last (typed_list sep1 (map (pair_text sep2) pairs) (c :: b)) 0%N) sep1 = false) as ->.
      { apply N.eqb_neq. unfold typed_list. rewrite last_app_ne by discriminate. intros El. apply H1. rewrite <- El. apply last_in. discriminate. }
      assert (after_last [sep1] (typed_list sep1 (map (pair_text sep2) pairs) (c :: b)) = c :: b) as ->.
      { apply last_pair. exact H1. }
      assert (memc sep2 (c :: b) = false) as -> by now apply memc_false.
      unfold typed_list. change (before sep1 (map (pair_text sep2) pairs)) with P. rewrite after_last_behind by exact Nb. rewrite without_end. apply AA.
Qed.

Lemma list_value arrays complete k v : text us = P ++ k ++ [sep2] ++ v -> ~ In sep1 k -> ~ In sep2 k -> ~ In sep1 v ->
  (forall us1 us2, us = us1 ++ us2 -> text us2 = v -> forall u, In u us2 -> is_break breaks u = false) ->
  Forall2 (fun word reply => accepted breaks us reply (P ++ k ++ [sep2] ++ word)) (complete k v) (list_replies breaks sep1 sep2 arrays complete cur).
Proof.
  clear Hl. intros E H1 H2 H3 Hv. destruct (dequote_right breaks cur us open Hu Hk) as (R & _ & B).
  assert (text us = (P ++ k ++ [sep2]) ++ v) as E' by now rewrite <- !app_assoc.
  destruct (text_split us _ v E') as (us1 & us2 & Eu & E1 & E2).
  assert (forall r, accepted breaks us (after_last strip (P ++ k ++ [sep2]) ++ r) (P ++ k ++ [sep2] ++ r)) as A.
  { intros r. replace (P ++ k ++ [sep2] ++ r) with ((P ++ k ++ [sep2]) ++ r) by now rewrite <- !app_assoc.
    rewrite Eu, <- E1. apply (accept_behind breaks strip us1 us2 (dq_break (dequote breaks cur))).
    - now rewrite <- Eu.
    - now apply (Hv us1 us2).
    - intros u I. apply (strip_in breaks [sep1; sep2] cur us u Hw). rewrite Eu. apply in_or_app. now left. }
  assert (~ In sep1 (k ++ [sep2] ++ v)) as H4.
  { intros I. apply in_app_or in I as [I | [I | I]]; [contradiction | congruence | contradiction]. }
  unfold list_replies. rewrite R. cbv zeta. fold strip.
  destruct (text us) as [| c0 t0] eqn:Tu.
  { exfalso. symmetry in E. apply app_eq_nil in E as [_ E]. apply app_eq_nil in E as [_ E]. discriminate. }
  rewrite E. assert (N.eqb (last (P ++ k ++ [sep2] ++ v) 0%N) sep1 = false) as ->.
  { assert (k ++ [sep2] ++ v <> []) as Nn by (intros X; apply app_eq_nil in X as [_ X]; discriminate).
    apply N.eqb_neq. rewrite last_app_ne by exact Nn. intros El. apply H4. rewrite <- El. now apply last_in. }
  assert (after_last [sep1] (P ++ k ++ [sep2] ++ v) = k ++ [sep2] ++ v) as -> by (apply (last_pair (k ++ [sep2] ++ v)); exact H4).
  rewrite memc_sep, behind_first_app, before_first_app by exact H2.
  replace (firstn (length (P ++ k ++ [sep2] ++ v) - length v) (P ++ k ++ [sep2] ++ v)) with (P ++ k ++ [sep2]).
  - induction (complete k v); constructor; [apply A | assumption].
  - rewrite !app_assoc, app_length. rewrite (Nat.add_comm _ (length v)), Nat.add_comm, Nat.add_sub. rewrite firstn_app, Nat.sub_diag, firstn_all. cbn [firstn]. now rewrite app_nil_r.
Qed.
End List.

(** ** Pairs *)
Lemma pair_value breaks sep keys complete cur us open f k v : units Outside cur = Some (us, open) -> none_kept us -> written breaks [sep] cur us ->
  text us = k ++ [sep] ++ v -> ~ In sep k -> complete k = Some f ->
  (forall us1 us2, us = us1 ++ us2 -> text us2 = v -> forall u, In u us2 -> is_break breaks u = false) ->
  Forall2 (fun word reply => accepted breaks us reply (k ++ [sep] ++ word)) (f v) (pair_replies breaks sep keys complete cur).
Proof.
  intros Hu Hk Hw E H Hc Hv. destruct (dequote_right breaks cur us open Hu Hk) as (R & _ & B).
  assert (text us = (k ++ [sep]) ++ v) as E' by now rewrite <- !app_assoc.
  destruct (text_split us _ v E') as (us1 & us2 & Eu & E1 & E2).
  assert (forall r, accepted breaks us (after_last (strip_chars breaks [sep] cur) (k ++ [sep]) ++ r) (k ++ [sep] ++ r)) as A.
  { intros r. replace (k ++ [sep] ++ r) with ((k ++ [sep]) ++ r) by now rewrite <- !app_assoc.
    rewrite Eu, <- E1. apply (accept_behind breaks _ us1 us2 (dq_break (dequote breaks cur))).
    - now rewrite <- Eu.
    - now apply (Hv us1 us2).
    - intros u I. apply (strip_in breaks [sep] cur us u Hw). rewrite Eu. apply in_or_app. now left. }
  unfold pair_replies. rewrite R, E. cbv zeta. rewrite memc_sep, before_first_app, behind_first_app by exact H. cbn [negb]. rewrite Hc.
  replace (firstn (length (k ++ [sep] ++ v) - length v) (k ++ [sep] ++ v)) with (k ++ [sep]).
  - induction (f v); constructor; [apply A | assumption].
  - rewrite app_assoc, app_length. rewrite (Nat.add_comm _ (length v)), Nat.add_comm, Nat.add_sub. rewrite firstn_app, Nat.sub_diag, firstn_all. cbn [firstn]. now rewrite app_nil_r.
Qed.
Lemma pair_keys breaks sep keys complete cur us open : units Outside cur = Some (us, open) -> none_kept us -> ~ In sep (text us) ->
  pair_replies breaks sep keys complete cur = keys (text us).
Proof.
  intros Hu Hk H. destruct (dequote_right breaks cur us open Hu Hk) as (R & _ & _). unfold pair_replies. rewrite R. cbv zeta.
  now rewrite (proj2 (memc_false sep (text us)) H).
Qed.

(** ** Keys that are printed *)
Definition key_line (p : printed) : str :=
  (if p_again p then [STAR] else []) ++ p_key p ++ p_takes p ++ [TAB] ++ p_description p ++ [TAB] ++ join [SP] (p_excludes p).
Lemma join_in (d c : N) l : In c (join [d] l) -> c = d \/ exists x, In x l /\ In c x.
Proof.
  induction l as [| x l IH]; [intros [] |]. destruct l as [| y l]; [cbn [join]; intros H; right; exists x; split; [now left | exact H] |].
  change (join [d] (x :: y :: l)) with (x ++ [d] ++ join [d] (y :: l)). intros H. apply in_app_or in H as [H | [H | H]].
  - right. exists x. split; [now left | exact H].
  - now left.
  - destruct (IH H) as [E | (z & Hz & Hc)]; [now left |]. right. exists z. split; [now right | exact Hc].
Qed.
Lemma takes_chars p c : In (p_takes p) [[]; s "="; s "=?"] -> In c (p_takes p) -> c = 61%N \/ c = 63%N.
Proof. intros [E | [E | [E | []]]]; rewrite <- E; cbn; intros; intuition. Qed.
Lemma head_no p c : good_key p -> c = TAB \/ c = LF -> ~ In c ((if p_again p then [STAR] else []) ++ p_key p ++ p_takes p).
Proof.
  intros ((_ & _ & K1 & K2) & _ & _ & Kt & _) Hc H. apply in_app_or in H as [H | H]; [| apply in_app_or in H as [H | H]].
  - destruct (p_again p); [destruct H as [H | []]; subst; destruct Hc; discriminate | destruct H].
  - destruct Hc as [-> | ->]; contradiction.
  - apply (takes_chars p c Kt) in H as [-> | ->]; destruct Hc; discriminate.
Qed.
Lemma excludes_no p c : good_key p -> c = TAB \/ c = LF -> ~ In c (join [SP] (p_excludes p)).
Proof.
  intros (_ & _ & _ & _ & _ & _ & _ & K) Hc H. apply join_in in H as [H | (x & Hx & H)]; [subst; destruct Hc; discriminate |].
  rewrite Forall_forall in K. destruct (K x Hx) as (_ & _ & K1 & K2). destruct Hc as [-> | ->]; contradiction.
Qed.
Lemma lines_read l : Forall good_key l -> read_lines (print_keys l) = map key_line l.
Proof.
  unfold read_lines. induction 1 as [| p l Hp H IH]; [reflexivity |]. unfold print_keys. cbn [flat_map map].
  replace (print_key p ++ flat_map print_key l) with (key_line p ++ LF :: flat_map print_key l) by (unfold print_key, key_line; now rewrite <- !app_assoc).
  rewrite ExecProofs.read_loop_line.
  - cbn [app]. f_equal. exact IH.
  - intros I. unfold key_line in I.
    pose proof (head_no p LF Hp (or_intror eq_refl)) as A. pose proof (excludes_no p LF Hp (or_intror eq_refl)) as B. destruct Hp as (_ & _ & _ & _ & _ & _ & D & _).
    repeat (apply in_app_or in I as [I | I]); try (apply A; apply in_or_app; tauto); try contradiction.
    + apply A. apply in_or_app. right. apply in_or_app. now left.
    + apply A. apply in_or_app. right. apply in_or_app. now right.
    + destruct I as [I | []]. discriminate I.
    + destruct I as [I | []]. discriminate I.
Qed.
Lemma strip_tabs x : hd 0%N x <> TAB -> last x 0%N <> TAB -> strip_p is_tab x = x.
Proof.
  intros H1 H2. apply ExecProofs.strip_none.
  - intros c r ->. apply ExecProofs.no_tab. exact H1.
  - intros c r ->. rewrite last_last in H2. now apply ExecProofs.no_tab.
Qed.
Lemma first_tab x r : ~ In TAB x -> first_field (x ++ TAB :: r) = (x, lstrip_p is_tab (TAB :: r)).
Proof. intros H. rewrite ExecProofs.first_field_item by exact H. cbn [first_field]. change (is_tab TAB) with true. cbn iota. now rewrite app_nil_r. Qed.
Lemma first_all x : ~ In TAB x -> first_field x = (x, []).
Proof. intros H. rewrite <- (app_nil_r x) at 1. rewrite ExecProofs.first_field_item by exact H. cbn. now rewrite app_nil_r. Qed.
Lemma lstrip_tab x : hd 0%N x <> TAB -> lstrip_p is_tab (TAB :: x) = x.
Proof.
  intros H. change (lstrip_p is_tab (TAB :: x)) with (lstrip_p is_tab x). apply ExecProofs.lstrip_none. intros c r ->. now apply ExecProofs.no_tab.
Qed.
Lemma hd_not x c : ~ In c x -> c <> 0%N -> hd 0%N x <> c.
Proof. destruct x; cbn; intuition. Qed.
Lemma last_not x c : ~ In c x -> c <> 0%N -> last x 0%N <> c.
Proof. intros H H0. destruct x as [| d x]; [cbn; congruence |]. intros E. apply H. rewrite <- E. apply last_in. discriminate. Qed.
Lemma line_read p : good_key p -> read_three (key_line p) = ((if p_again p then [STAR] else []) ++ p_key p ++ p_takes p, p_description p, join [SP] (p_excludes p)).
Proof.
  intros Hp. pose proof (head_no p TAB Hp (or_introl eq_refl)) as A. pose proof (excludes_no p TAB Hp (or_introl eq_refl)) as B.
  destruct Hp as ((K & _) & _ & _ & _ & D0 & D1 & _). unfold key_line. set (h := (if p_again p then [STAR] else []) ++ p_key p ++ p_takes p) in *.
  replace ((if p_again p then [STAR] else []) ++ p_key p ++ p_takes p ++ [TAB] ++ p_description p ++ [TAB] ++ join [SP] (p_excludes p))
    with (h ++ [TAB] ++ p_description p ++ [TAB] ++ join [SP] (p_excludes p)) by (unfold h; now rewrite <- !app_assoc).
  assert (h <> []) as Hh by (unfold h; destruct (p_again p), (p_key p); try discriminate; contradiction).
  set (e := join [SP] (p_excludes p)) in *. set (d := p_description p) in *. clearbody h e d.
  unfold read_three, read_two. destruct e as [| c e].
  - rewrite app_nil_r. assert (strip_p is_tab (h ++ [TAB] ++ d ++ [TAB]) = h ++ [TAB] ++ d) as ->.
    { unfold strip_p. rewrite ExecProofs.lstrip_none.
      - unfold rstrip_p. rewrite !app_assoc, rev_app_distr. cbn [rev app]. rewrite lstrip_tab.
        + now rewrite rev_involutive.
        + rewrite <- app_assoc, rev_app_distr, rev_app_distr, <- app_assoc. destruct (exists_last D0) as (d' & c & Ed). rewrite Ed, rev_app_distr. cbn [rev app hd].
          intros ->. apply D1. rewrite Ed. apply in_or_app. right. now left.
      - intros c r E. destruct h as [| c' h]; [contradiction |]. cbn [app] in E. injection E as -> _. apply ExecProofs.no_tab. intros ->. apply A. now left. }
    cbn [app]. rewrite first_tab by exact A. rewrite lstrip_tab by (apply hd_not; [exact D1 | discriminate]). now rewrite first_all.
  - rewrite strip_tabs.
    + cbn [app]. rewrite first_tab by exact A. rewrite lstrip_tab.
      * rewrite first_tab by exact D1. rewrite lstrip_tab by (apply hd_not; [exact B | discriminate]). reflexivity.
      * destruct d as [| x d]; [contradiction |]. cbn [app hd]. intros ->. apply D1. now left.
    + destruct h as [| x h]; [contradiction |]. cbn [app hd]. intros ->. apply A. now left.
    + rewrite !app_assoc. rewrite last_app_ne by discriminate. apply last_not; [exact B | discriminate].
Qed.
Lemma ends_eq k : ~ In 61%N k -> ends_with (s "=") k = false.
Proof.
  intros H. destruct (ends_with (s "=") k) eqn:E; [| reflexivity]. exfalso. unfold ends_with in E. apply starts_with_app in E as (y & E).
  apply (f_equal (@rev N)) in E. rewrite rev_involutive, rev_app_distr, rev_involutive in E. apply H. rewrite E. apply in_or_app. right. now left.
Qed.
Lemma ends_eqq k : ~ In 61%N k -> ends_with (s "=?") k = false.
Proof.
  intros H. destruct (ends_with (s "=?") k) eqn:E; [| reflexivity]. exfalso. unfold ends_with in E. apply starts_with_app in E as (y & E).
  apply (f_equal (@rev N)) in E. rewrite rev_involutive, rev_app_distr, rev_involutive in E. apply H. rewrite E. apply in_or_app. right. now left.
Qed.
Lemma key_read p : good_key p -> printed_key (key_line p) =
  (p_key p, ([], if p_again p then join [SP] (p_excludes p) else join [SP] (p_excludes p) ++ SP :: p_key p)).
Proof.
  intros Hp. unfold printed_key. rewrite (line_read p Hp). destruct Hp as ((K & _) & Ks & Ke & Kt & _). cbv zeta.
  set (h := (if p_again p then [STAR] else []) ++ p_key p).
  assert (~ In 61%N h) as Hh. { intros I. unfold h in I. apply in_app_or in I as [I | I]; [| contradiction]. destruct (p_again p); [destruct I as [I | []]; discriminate | destruct I]. }
  assert ((if ends_with (s "=") (h ++ p_takes p) then firstn (length (h ++ p_takes p) - 1) (h ++ p_takes p)
           else if ends_with (s "=?") (h ++ p_takes p) then firstn (length (h ++ p_takes p) - 2) (h ++ p_takes p) else h ++ p_takes p) = h) as E.
  { destruct Kt as [<- | [<- | [<- | []]]].
    - rewrite app_nil_r, ends_eq, ends_eqq by exact Hh. reflexivity.
    - rewrite ends_with_app, app_length. change (length (s "=")) with 1%nat. rewrite Nat.add_sub, firstn_app, Nat.sub_diag, firstn_all. cbn [firstn]. apply app_nil_r.
    - assert (ends_with (s "=") (h ++ s "=?") = false) as ->.
      { unfold ends_with. rewrite rev_app_distr. reflexivity. }
      rewrite ends_with_app, app_length. change (length (s "=?")) with 2%nat. rewrite Nat.add_sub, firstn_app, Nat.sub_diag, firstn_all. cbn [firstn]. apply app_nil_r. }
  unfold h in E. rewrite <- !app_assoc in E. rewrite E. destruct (p_again p); cbn [app].
  - change (N.eqb STAR STAR) with true. reflexivity.
  - destruct (p_key p) as [| c k]; [contradiction |]. cbn [hd] in Ks. destruct (N.eqb_spec c STAR); [contradiction | reflexivity].
Qed.
Lemma names_read l k w : Forall word l -> word k -> (In w (read_names (join [SP] l ++ SP :: k)) <-> In w l \/ w = k).
Proof.
  intros Hl Hk. assert (forall l, (forall x, In x l -> ~ In SP x) -> In w (read_names (join [SP] l)) <-> In w l /\ w <> []) as J by (intros; now apply KeyValueProofs.read_names_join).
  rewrite Forall_forall in Hl. destruct l as [| x l].
  - change (join [SP] [] ++ SP :: k) with (join [SP] [[]; k]). rewrite J.
    + cbn [In]. destruct Hk as (Hk & _). intuition congruence.
    + intros y [<- | [<- | []]]; [intros [] | apply Hk].
  - replace (join [SP] (x :: l) ++ SP :: k) with (join [SP] ((x :: l) ++ [k])).
    + rewrite J.
      * rewrite in_app_iff. change (In w [k]) with (k = w \/ False). destruct Hk as (Hk & _). split; [intuition congruence |]. intros [I | ->]; [| split; [now right; left | exact Hk]].
        split; [now left |]. apply (Hl w I).
      * intros y I. apply in_app_or in I as [I | [<- | []]]; [apply (Hl y I) | apply Hk].
    + clear. revert x. induction l as [| y l IH]; intros x; [reflexivity |]. change ((x :: y :: l) ++ [k]) with (x :: y :: (l ++ [k])).
      change (join [SP] (x :: y :: l ++ [k])) with (x ++ [SP] ++ join [SP] ((y :: l) ++ [k])). rewrite IH.
      change (join [SP] (x :: y :: l)) with (x ++ [SP] ++ join [SP] (y :: l)). now rewrite <- !app_assoc.
Qed.
Lemma names_read' l w : Forall word l -> (In w (read_names (join [SP] l)) <-> In w l).
Proof.
  intros Hl. rewrite Forall_forall in Hl. rewrite KeyValueProofs.read_names_join by (intros x I; apply (Hl x I)).
  split; [tauto |]. intros I. split; [exact I | apply (Hl w I)].
Qed.
Lemma element_find {A} (f : A -> str * (str * str)) l a : NoDup (map (fun x => fst (f x)) l) -> In a l -> element (map f l) (fst (f a)) = Some (snd (f a)).
Proof.
  intros Hd Ha. unfold element. destruct (find (fun x => str_eqb (fst x) (fst (f a))) (rev (map f l))) as [x |] eqn:F.
  - apply find_some in F as [F1 F2]. apply in_rev in F1. apply in_map_iff in F1 as (b & <- & Hb). apply str_eqb_eq in F2.
    assert (b = a) as ->; [| reflexivity]. clear - Hd Ha Hb F2. induction l as [| c l IH]; [destruct Ha |]. cbn [map] in Hd. inversion Hd as [| ? ? N1 N2]; subst.
    destruct Ha as [-> | Ha], Hb as [-> | Hb]; auto; exfalso; apply N1; [rewrite <- F2 | rewrite F2]; now apply (in_map (fun x => fst (f x))).
  - pose proof (find_none _ _ F (f a)) as K. cbn beta in K. rewrite str_eqb_refl in K. discriminate K. apply -> in_rev. now apply in_map.
Qed.
Lemma element_missing {A} (f : A -> str * (str * str)) l key x : element (map f l) key = Some x -> exists a, In a l /\ fst (f a) = key.
Proof.
  unfold element. destruct (find (fun x => str_eqb (fst x) key) (rev (map f l))) as [y |] eqn:F; [| discriminate]. intros _.
  apply find_some in F as [F1 F2]. apply in_rev in F1. apply in_map_iff in F1 as (b & <- & Hb). apply str_eqb_eq in F2. now exists b.
Qed.
Lemma exec_left l typed key : Forall good_key l -> NoDup (map p_key l) ->
  let arrays := map printed_key (read_lines (print_keys l)) in
  (In key (filter (fun key => negb (mems key (having_keys arrays typed))) (map fst arrays)) <-> left l typed key).
Proof.
  intros Hl Hd. rewrite (lines_read l Hl). cbv zeta. rewrite map_map.
  set (f := fun p => (p_key p, (@nil N, if p_again p then join [SP] (p_excludes p) else join [SP] (p_excludes p) ++ SP :: p_key p))).
  assert (map (fun x => printed_key (key_line x)) l = map f l) as ->.
  { apply map_ext_in. intros p I. rewrite Forall_forall in Hl. now rewrite (key_read p (Hl p I)). }
  rewrite Forall_forall in Hl. rewrite filter_In, map_map, negb_true_iff. change (fun x => fst (f x)) with p_key. unfold left.
  assert (forall P Q R : Prop, (Q <-> R) -> (P /\ Q <-> P /\ R)) as K by tauto. apply K. clear K.
  assert (forall p w, In p l -> (In w (read_names (snd (snd (f p)))) <-> In w (p_excludes p) \/ (p_again p = false /\ w = p_key p))) as G.
  { intros p w I. destruct (Hl p I) as (K1 & _ & _ & _ & _ & _ & _ & K2). unfold f. cbn [snd]. destruct (p_again p).
    - rewrite names_read' by exact K2. intuition discriminate.
    - rewrite names_read by assumption. intuition. }
  rewrite <- not_true_iff_false, CaptureProofs.mems_iff. unfold having_keys. split.
  - intros H p I It. assert (forall w, In w (read_names (snd (snd (f p)))) -> w <> key) as H'.
    { intros w Iw ->. apply H. apply in_flat_map. exists (p_key p). split; [exact It |]. change (p_key p) with (fst (f p)).
      rewrite (element_find f l p Hd I). unfold f in Iw |- *. cbn [snd] in *. exact Iw. }
    split.
    + intros Ie. apply (H' key); [| reflexivity]. apply G; auto.
    + intros Ea E. apply (H' key); [| reflexivity]. apply G; auto.
  - intros H I. apply in_flat_map in I as (k & It & I). destruct (element (map f l) k) as [[fn ex] |] eqn:E; [| destruct I].
    destruct (element_missing f l k _ E) as (p & Ip & <-). rewrite (element_find f l p Hd Ip) in E. destruct (H p Ip It) as [H1 H2].
    assert (snd (snd (f p)) = ex) as Ex by (injection E; intros; assumption). rewrite <- Ex in I. apply (G p key Ip) in I as [I | [Ea I]]; [contradiction | now apply H2].
Qed.
