(** * Proofs for C129 *)
From Verif Require Import Base BashOffers SpecBashWords SpecPrefix PrefixReply SpecPrefixReply.
From Coq Require Import Lia.
Open Scope list_scope.

Lemma plain_units x : plain x -> units Outside x = Some (bare x, false).
Proof.
  induction x as [| c x IH]; intros P; [reflexivity |]. cbn [units bare map].
  assert (Pc := P c (or_introl eq_refl)).
  assert (E : forall d, In d [SQ; DQ; BS; DOLLAR; BTICK] -> N.eqb c d = false).
  { intros d Hd. destruct (N.eqb_spec c d) as [-> |]; [contradiction | reflexivity]. }
  rewrite (E SQ), (E DQ), (E BS) by (simpl; tauto).
  replace (memc c [DOLLAR; BTICK]) with false.
  - rewrite IH by (intros d Hd; apply P; now right). reflexivity.
  - symmetry. apply memc_false. intros Hi. apply Pc. simpl in Hi |- *. tauto.
Qed.

Lemma has_break_false breaks x : has_break breaks x = false <-> forall c, In c x -> memc c breaks = false.
Proof.
  unfold has_break. split.
  - intros H c Hc. destruct (memc c breaks) eqn:E; [| reflexivity].
    rewrite (proj2 (existsb_exists _ x)) in H; [discriminate | now exists c].
  - intros H. destruct (existsb _ x) eqn:E; [| reflexivity]. apply existsb_exists in E.
    destruct E as (c & Hc & E). rewrite (H c Hc) in E. discriminate.
Qed.

Lemma text_bare x : text (bare x) = x.
Proof. unfold text, bare. rewrite map_map. cbn. apply map_id. Qed.
Lemma bare_app x y : bare (x ++ y) = bare x ++ bare y.
Proof. apply map_app. Qed.
Lemma bare_break breaks x : (forall u, In u (bare x) -> is_break breaks u = false) <-> has_break breaks x = false.
Proof.
  rewrite has_break_false. unfold bare. split.
  - intros H c Hc. apply (H (c, Bare)). apply in_map_iff. now exists c.
  - intros H u Hu. apply in_map_iff in Hu as (c & <- & Hc). apply (H c Hc).
Qed.

Lemma reply_right breaks prefix value reply result :
  (forall c, In c prefix -> ~ In c breaks) -> accepted breaks (bare value) reply result ->
  accepted breaks (bare (prefix ++ value)) (if has_break breaks (prefix ++ value) then reply else prefix ++ reply) (prefix ++ result).
Proof.
  intros P (n & B & ->).
  assert (Pb : has_break breaks prefix = false) by (apply has_break_false; intros c Hc; apply memc_false, P, Hc).
  assert (E : has_break breaks (prefix ++ value) = has_break breaks value).
  { unfold has_break in *. rewrite existsb_app, Pb. reflexivity. }
  rewrite E. destruct n as [k |].
  - destruct B as (u & b & v & E1 & Hb & Hv & ->).
    destruct (has_break breaks value) eqn:F.
    + exists (Some (S (List.length (bare prefix ++ u)))). split.
      * exists (bare prefix ++ u), b, v. rewrite bare_app, E1, <- app_assoc. repeat split; auto.
      * rewrite !text_bare, app_length. unfold bare at 1. rewrite map_length.
        replace (S (List.length prefix + List.length u)) with (List.length prefix + S (List.length u)) by lia.
        rewrite firstn_app_2, <- app_assoc. reflexivity.
    + exfalso. apply bare_break with (u := b) in F; [congruence |]. rewrite E1. apply in_app_iff; right; now left.
  - apply bare_break in B. rewrite B. exists None. cbn. split; [| reflexivity].
    apply bare_break. rewrite E. exact B.
Qed.

(** Every code for an attached value gets the parts of the word. *)
Lemma call_in e m o value prefix w code v p :
  In (Run code v p) (fst (call e m o value prefix w)) -> v = value /\ p = prefix.
Proof.
  unfold call. destruct (run_master e m o w) as [codes ok]. cbn. intros H. apply in_map_iff in H as (x & H & _).
  injection H as <- <- <-. auto.
Qed.
Lemma then_in a b x : In x (fst (then_ a b)) -> In x (fst a) \/ In x (fst b).
Proof. unfold then_. destruct (snd a); cbn; [auto |]. intros H. apply in_app_iff in H. exact H. Qed.
Lemma chars_in e m rest : forall pre code v p, In (Run code v p) (fst (run_cur_chars e m pre rest)) -> pre ++ rest = p ++ v.
Proof.
  induction rest as [| c rest IH]; intros pre code v p H; cbn [run_cur_chars] in H; [contradiction H |].
  apply then_in in H as [H | H].
  - apply call_in in H as [-> ->]. now rewrite <- app_assoc.
  - apply IH in H. now rewrite <- app_assoc in H.
Qed.
Lemma prev_in e i m st code v p : In (Run code v p) (fst (run_prev e i m st)) -> p = [].
Proof.
  unfold run_prev. cbv zeta. intros H.
  repeat match type of H with In _ (fst (if ?b then _ else _)) => destruct b end;
    try contradiction H; try (apply then_in in H as [H | H]); now apply call_in in H.
Qed.
Lemma cur_in e i m st code v p : In (Run code v p) (fst (run_cur e i m st)) -> p = [] \/ st_cur st = p ++ v.
Proof.
  unfold run_cur. cbv zeta. intros H.
  assert (C : In (Run code v p) (fst (if i_short_required i || i_short_optional i
      then run_cur_chars e m (firstn 1 (st_cur st)) (skipn 1 (st_cur st)) else nothing)) -> st_cur st = p ++ v).
  { intros K. destruct (i_short_required i || i_short_optional i); [| contradiction K].
    apply chars_in in K. now rewrite firstn_skipn in K. }
  repeat match type of H with In _ (fst (if ?b then _ else _)) =>
    lazymatch b with i_short_required i || i_short_optional i => fail | _ => destruct b end end;
    try contradiction H; try (apply then_in in H as [H | H]); auto; try (apply call_in in H; tauto).
Qed.
Lemma dispatcher_in e i m st code v p : In (Run code v p) (fst (run_dispatcher e i m st)) -> p = [] \/ st_cur st = p ++ v.
Proof.
  unfold run_dispatcher. cbv zeta. intros H. apply then_in in H as [H | H].
  - destruct (_ || _ || _); [left; exact (prev_in _ _ _ _ _ _ _ H) | contradiction H].
  - destruct (_ || _); [exact (cur_in _ _ _ _ _ _ _ H) | contradiction H].
Qed.
