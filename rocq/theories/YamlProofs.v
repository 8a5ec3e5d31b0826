(** * Proofs: the parser's objects stand for the documents. *)
From Verif Require Import Base Value YamlParser SpecYaml.
Open Scope list_scope.

Section Induction.
Variable P : tree -> Prop.
Hypothesis HS : forall x, P (TScalar x).
Hypothesis HM : forall p items, Forall (fun kv => P (snd kv)) items -> P (TMap p items).
Hypothesis HL : forall p items, Forall P items -> P (TSeq p items).
Fixpoint tree_ind' (t : tree) : P t :=
  match t with
  | TScalar x => HS x
  | TMap p items => HM p items ((fix go l := match l return Forall (fun kv => P (snd kv)) l with
      | [] => Forall_nil _ | kv :: l' => Forall_cons kv (tree_ind' (snd kv)) (go l') end) items)
  | TSeq p items => HL p items ((fix go l := match l return Forall P l with
      | [] => Forall_nil _ | t' :: l' => Forall_cons t' (tree_ind' t') (go l') end) items)
  end.
End Induction.
Section NInduction.
Variable P : node -> Prop.
Hypothesis HS : forall p v, P (NScalar p v).
Hypothesis HM : forall p items, Forall (fun kv => P (snd kv)) items -> P (NMap p items).
Hypothesis HL : forall p items, Forall P items -> P (NSeq p items).
Fixpoint node_ind' (t : node) : P t :=
  match t with
  | NScalar p v => HS p v
  | NMap p items => HM p items ((fix go l := match l return Forall (fun kv => P (snd kv)) l with
      | [] => Forall_nil _ | kv :: l' => Forall_cons kv (node_ind' (snd kv)) (go l') end) items)
  | NSeq p items => HL p items ((fix go l := match l return Forall P l with
      | [] => Forall_nil _ | t' :: l' => Forall_cons t' (node_ind' t') (go l') end) items)
  end.
End NInduction.

(** ** Objects whose parts lie at [lo] and behind *)
Fixpoint at_ (lo : nat) (h : heap) (i : nat) (n : node) {struct n} : Prop :=
  (lo <= i)%nat /\
  match n with
  | NScalar p v => nth_error h i = Some (p, CScalar v)
  | NMap p items => exists l, nth_error h i = Some (p, CMap l) /\
      Forall2 (fun kj x => (lo <= fst kj)%nat /\ nth_error h (fst kj) = Some (fst (fst x), CScalar (snd (fst x)))) l items /\
      (fix all l items {struct items} := match l, items with
         | [], [] => True
         | (k, j) :: l', (_, n') :: items' => at_ lo h j n' /\ all l' items'
         | _, _ => False
         end) l items
  | NSeq p items => exists l, nth_error h i = Some (p, CSeq l) /\
      (fix all l items {struct items} := match l, items with
         | [], [] => True
         | j :: l', n' :: items' => at_ lo h j n' /\ all l' items'
         | _, _ => False
         end) l items
  end.
Definition all_at lo h := Forall2 (at_ lo h).
Definition pair_at lo h (kj : nat * nat) (x : (position * value) * node) : Prop :=
  ((lo <= fst kj)%nat /\ nth_error h (fst kj) = Some (fst (fst x), CScalar (snd (fst x)))) /\ at_ lo h (snd kj) (snd x).
Lemma at_scalar lo h i p v : at_ lo h i (NScalar p v) <-> (lo <= i)%nat /\ nth_error h i = Some (p, CScalar v).
Proof. reflexivity. Qed.
Lemma at_seq lo h i p items : at_ lo h i (NSeq p items) <-> (lo <= i)%nat /\ exists l, nth_error h i = Some (p, CSeq l) /\ Forall2 (at_ lo h) l items.
Proof.
  cbn [at_]. split; intros (Hi & l & E & H); (split; [exact Hi |]); exists l; (split; [exact E |]).
  - clear E. revert l H. induction items as [| n items IH]; intros [| j l] H; try contradiction; constructor; [apply H | apply IH, H].
  - clear E. induction H as [| j n l items Hj H IH]; [exact I | now split].
Qed.
Lemma at_map lo h i p items : at_ lo h i (NMap p items) <-> (lo <= i)%nat /\ exists l, nth_error h i = Some (p, CMap l) /\ Forall2 (pair_at lo h) l items.
Proof.
  cbn [at_]. split.
  - intros (Hi & l & E & H0 & H). split; [exact Hi |]. exists l. split; [exact E |]. clear E. revert items H0 H.
    induction l as [| [k j] l IH]; intros items H0 H; inversion H0; subst; [constructor |]. destruct y as [x n]. constructor; [split; [assumption | apply H] | apply IH; [assumption | apply H]].
  - intros (Hi & l & E & H). split; [exact Hi |]. exists l. split; [exact E |]. clear E.
    induction H as [| [k j] [x n] l items Hj H IH]; [split; [constructor | exact I] |]. destruct Hj as [Hj1 Hj2]. destruct IH as [IH1 IH2]. split; [now constructor | now split].
Qed.
Lemma at_mono lo lo' h n : (lo' <= lo)%nat -> forall i, at_ lo h i n -> at_ lo' h i n.
Proof.
  intros Hlo. induction n as [p v | p items IH | p items IH] using node_ind'; intros i H.
  - apply at_scalar in H as [H E]. apply at_scalar. split; [lia | exact E].
  - apply at_map in H as (H & l & E & F). apply at_map. split; [lia |]. exists l. split; [exact E |]. clear E.
    induction F as [| [k j] [x n] l items [[K1 K2] K3] F IHF]; [constructor |]. inversion IH; subst. constructor; [| now apply IHF].
    split; [split; [cbn in *; lia | exact K2] | now apply H2].
  - apply at_seq in H as (H & l & E & F). apply at_seq. split; [lia |]. exists l. split; [exact E |]. clear E.
    induction F as [| j n l items Hj F IHF]; [constructor |]. inversion IH; subst. constructor; [now apply H2 | now apply IHF].
Qed.
Definition keeps (lo : nat) (h h' : heap) : Prop := forall j, (lo <= j)%nat -> (j < List.length h)%nat -> nth_error h' j = nth_error h j.
Lemma keeps_some lo h h' j o : keeps lo h h' -> (lo <= j)%nat -> nth_error h j = Some o -> nth_error h' j = Some o.
Proof. intros K H E. rewrite K; [exact E | exact H |]. apply nth_error_Some. congruence. Qed.
Lemma at_keeps lo h h' n : keeps lo h h' -> forall i, at_ lo h i n -> at_ lo h' i n.
Proof.
  intros K. induction n as [p v | p items IH | p items IH] using node_ind'; intros i H.
  - apply at_scalar in H as [H E]. apply at_scalar. split; [exact H | eapply keeps_some; eassumption].
  - apply at_map in H as (H & l & E & F). apply at_map. split; [exact H |]. exists l. split; [eapply keeps_some; eassumption |]. clear E.
    induction F as [| [k j] [x n] l items [[K1 K2] K3] F IHF]; [constructor |]. inversion IH; subst. constructor; [| now apply IHF].
    split; [split; [exact K1 | eapply keeps_some; eassumption] | now apply H2].
  - apply at_seq in H as (H & l & E & F). apply at_seq. split; [exact H |]. exists l. split; [eapply keeps_some; eassumption |]. clear E.
    induction F as [| j n l items Hj F IHF]; [constructor |]. inversion IH; subst. constructor; [now apply H2 | now apply IHF].
Qed.
Lemma at_stands lo h n : forall i, at_ lo h i n -> stands_for h i n.
Proof.
  induction n as [p v | p items IH | p items IH] using node_ind'; intros i H.
  - now apply at_scalar in H as [_ E].
  - apply at_map in H as (H & l & E & F). exists l. split; [exact E |]. clear E.
    induction F as [| [k j] [[pk v] n] l items [[K1 K2] K3] F IHF]; [exact I |]. inversion IH; subst. split; [exact K2 |]. split; [now apply H2 | now apply IHF].
  - apply at_seq in H as (H & l & E & F). exists l. split; [exact E |]. clear E.
    induction F as [| j n l items Hj F IHF]; [exact I |]. inversion IH; subst. split; [now apply H2 | now apply IHF].
Qed.

(** ** The heap *)
Lemma set_length h : forall i c, List.length (set_content h i c) = List.length h.
Proof. induction h as [| o h IH]; intros [| i] c; cbn; [reflexivity .. |]. now rewrite IH. Qed.
Lemma set_same h : forall i c p c0, nth_error h i = Some (p, c0) -> nth_error (set_content h i c) i = Some (p, c).
Proof. induction h as [| o h IH]; intros [| i] c p c0 H; cbn in *; try discriminate; [now injection H as -> | eapply IH; exact H]. Qed.
Lemma set_other h : forall i j c, i <> j -> nth_error (set_content h i c) j = nth_error h j.
Proof. induction h as [| o h IH]; intros [| i] [| j] c H; cbn; try reflexivity; [contradiction | apply IH; lia]. Qed.
Lemma nth_new (h : heap) o : nth_error (h ++ [o]) (List.length h) = Some o.
Proof. rewrite nth_error_app2, Nat.sub_diag by lia. reflexivity. Qed.
Lemma nth_old (h : heap) o j : (j < List.length h)%nat -> nth_error (h ++ [o]) j = nth_error h j.
Proof. intros H. now apply nth_error_app1. Qed.
Lemma some_lt (h : heap) j o : nth_error h j = Some o -> (j < List.length h)%nat.
Proof. intros H. apply nth_error_Some. congruence. Qed.

(** ** Adding to the collection on the top of the stack *)
Definition put (h : heap) (c : content) (key : option nat) (i : nat) : content :=
  match c, key with
  | CSeq l, _ => CSeq (l ++ [i])
  | CMap l, Some k => CMap (set_item h l k i)
  | _, _ => c
  end.
(** the collection [c] can take a value *)
Definition ready (h : heap) (c : content) (key : option nat) : Prop :=
  match c, key with
  | CSeq _, None => True
  | CMap l, Some k => (k < List.length h)%nat /\ forall k' j, In (k', j) l -> (k' < List.length h)%nat
  | _, _ => False
  end.
Lemma same_key_app h o a b : (a < List.length h)%nat -> (b < List.length h)%nat -> same_key (h ++ [o]) a b = same_key h a b.
Proof. intros H1 H2. unfold same_key, content_at. now rewrite !nth_old. Qed.
Lemma set_item_app h o l k v : (k < List.length h)%nat -> (forall k' j, In (k', j) l -> (k' < List.length h)%nat) -> set_item (h ++ [o]) l k v = set_item h l k v.
Proof.
  intros Hk. induction l as [| [k' w] l IH]; intros H; [reflexivity |]. cbn [set_item]. rewrite same_key_app by (exact Hk || (apply (H k' w); now left)).
  rewrite IH by (intros k0 j Hj; apply (H k0 j); now right). reflexivity.
Qed.
Lemma add_ok data cur rest key (h : heap) (o : object) p c : nth_error h cur = Some (p, c) -> ready h c key ->
  add_to_current_structure (St data (cur :: rest) key (h ++ [o])) key (List.length h) =
  Ok (St data (cur :: rest) key (set_content (h ++ [o]) cur (put h c key (List.length h)))).
Proof.
  intros E R. pose proof (some_lt _ _ _ E) as L. unfold add_to_current_structure. cbn [st_stack st_heap st_data st_key]. unfold content_at. rewrite nth_old by exact L. rewrite E. cbn [option_map snd].
  destruct c as [v | l | l]; destruct key as [k |]; try contradiction; cbn [put].
  - destruct R as [R1 R2]. now rewrite set_item_app.
  - reflexivity.
Qed.

Lemma Forall2_impl' {A B} (R R' : A -> B -> Prop) l l' : (forall a b, R a b -> R' a b) -> Forall2 R l l' -> Forall2 R' l l'.
Proof. intros H. induction 1; constructor; auto. Qed.

Section Convert.
Notation mean := (meaning convert_scalar).
Notation val := (scalar_value convert_scalar).

Lemma events_app a b : forall st, handle_events st (a ++ b) = do st' <- handle_events st a; handle_events st' b.
Proof. induction a as [| e a IH]; intros st; [reflexivity |]. cbn [app handle_events]. destruct (handle_event st e) as [x | st']; [reflexivity |]. cbn [bind]. apply IH. Qed.

(** reading [l] adds one value that stands for [n] to the collection [c] at [cur] *)
Definition adds (l : list event) (n : node) : Prop := forall data cur rest key h p c,
  nth_error h cur = Some (p, c) -> ready h c key ->
  exists h' i, handle_events (St data (cur :: rest) key h) l = Ok (St data (cur :: rest) None h') /\
    nth_error h' cur = Some (p, put h c key i) /\ (List.length h <= List.length h')%nat /\
    (forall j, (j < List.length h)%nat -> j <> cur -> nth_error h' j = nth_error h j) /\ at_ (List.length h) h' i n.

Lemma add_scalar x : adds [scalar_event x] (NScalar (fst (val x)) (snd (val x))).
Proof.
  intros data cur rest key h p c E R. pose proof (some_lt _ _ _ E) as L. unfold scalar_event. cbn [handle_events handle_event].
  unfold alloc. cbn [st_data st_stack st_key st_heap]. set (o := (fst (fst x), CScalar (convert_scalar (snd (fst x)) (snd x))) : object).
  pose proof (add_ok data cur rest key h o p c E R) as A.
  exists (set_content (h ++ [o]) cur (put h c key (List.length h))), (List.length h).
  assert (forall P : Prop, P -> P /\ (nth_error (set_content (h ++ [o]) cur (put h c key (List.length h))) cur = Some (p, put h c key (List.length h)) /\
    (List.length h <= List.length (set_content (h ++ [o]) cur (put h c key (List.length h))))%nat /\
    (forall j, (j < List.length h)%nat -> j <> cur -> nth_error (set_content (h ++ [o]) cur (put h c key (List.length h))) j = nth_error h j) /\
    at_ (List.length h) (set_content (h ++ [o]) cur (put h c key (List.length h))) (List.length h) (NScalar (fst (val x)) (snd (val x))))) as K.
  { intros P HP. split; [exact HP |]. split; [eapply set_same; rewrite nth_old by exact L; exact E |]. split; [rewrite set_length, app_length; cbn [List.length]; lia |].
    split; [intros j Hj Hn; rewrite set_other by congruence; now apply nth_old |]. apply at_scalar. split; [lia |]. rewrite set_other by lia. apply nth_new. }
  apply K. clear K. unfold content_at. rewrite nth_old by exact L. rewrite E. cbn [option_map snd].
  destruct c as [v | l | l]; destruct key as [k |]; try contradiction; cbn [set_key st_data st_stack st_heap]; rewrite A; reflexivity.
Qed.

(** what an opened collection looks like *)
Lemma open_collection data cur rest key (h : heap) p c (o : object) : nth_error h cur = Some (p, c) -> ready h c key ->
  exists h1, add_to_current_structure (St data (cur :: rest) key (h ++ [o])) key (List.length h) = Ok (St data (cur :: rest) key h1) /\
    nth_error h1 cur = Some (p, put h c key (List.length h)) /\ List.length h1 = S (List.length h) /\ nth_error h1 (List.length h) = Some o /\
    (forall j, (j < List.length h)%nat -> j <> cur -> nth_error h1 j = nth_error h j).
Proof.
  intros E R. pose proof (some_lt _ _ _ E) as L. eexists. split; [eapply add_ok; eassumption |]. split; [eapply set_same; rewrite nth_old by exact L; exact E |].
  split; [rewrite set_length, app_length; cbn [List.length]; lia |]. split; [rewrite set_other by lia; apply nth_new |]. intros j Hj Hn. rewrite set_other by congruence. now apply nth_old.
Qed.

(** the items of a sequence *)
Lemma add_items items : Forall (fun t => adds (events t) (mean t)) items -> forall data cur rest h p l lo,
  nth_error h cur = Some (p, CSeq l) -> (lo <= List.length h)%nat -> (cur < lo)%nat ->
  exists h' l', handle_events (St data (cur :: rest) None h) (flat_map events items) = Ok (St data (cur :: rest) None h') /\
    nth_error h' cur = Some (p, CSeq (l ++ l')) /\ (List.length h <= List.length h')%nat /\
    (forall j, (j < List.length h)%nat -> j <> cur -> nth_error h' j = nth_error h j) /\ Forall2 (at_ lo h') l' (map mean items).
Proof.
  induction 1 as [| t items Ht _ IH]; intros data cur rest h p l lo E Hlo Hc.
  - exists h, []. rewrite app_nil_r. repeat split; auto. constructor.
  - destruct (Ht data cur rest None h p (CSeq l) E I) as (h1 & i & G & E1 & L1 & K1 & A1).
    destruct (IH data cur rest h1 p (l ++ [i]) lo E1) as (h2 & l2 & G2 & E2 & L2 & K2 & A2); [lia | exact Hc |].
    exists h2, (i :: l2). cbn [flat_map]. rewrite events_app, G. cbn [bind]. split; [exact G2 |]. split; [rewrite E2, <- app_assoc; reflexivity |].
    split; [lia |]. split; [intros j Hj Hn; rewrite K2 by (lia || assumption); now apply K1 |].
    cbn [map]. constructor; [| exact A2]. eapply at_mono; [exact Hlo |]. eapply at_keeps; [| exact A1].
    intros j Hj1 Hj2. apply K2; [exact Hj2 |]. pose proof (some_lt _ _ _ E). lia.
Qed.

(** the items of a mapping *)
Lemma add_pairs items : Forall (fun kv => adds (events (snd kv)) (mean (snd kv))) items -> forall data cur rest h p l done lo,
  nth_error h cur = Some (p, CMap l) -> (lo <= List.length h)%nat -> (cur < lo)%nat ->
  Forall2 (pair_at lo h) l done ->
  exists h' l', handle_events (St data (cur :: rest) None h) (flat_map (fun kv => scalar_event (fst kv) :: events (snd kv)) items) = Ok (St data (cur :: rest) None h') /\
    nth_error h' cur = Some (p, CMap l') /\ (List.length h <= List.length h')%nat /\
    (forall j, (j < List.length h)%nat -> j <> cur -> nth_error h' j = nth_error h j) /\
    Forall2 (pair_at lo h') l' (last_values done (map (fun kv => (val (fst kv), mean (snd kv))) items)).
Proof.
  induction 1 as [| [k t] items Ht _ IH]; intros data cur rest h p l done lo E Hlo Hc F.
  - exists h, l. repeat split; auto.
  - cbn [flat_map fst snd]. pose proof (some_lt _ _ _ E) as L.
    set (o := (fst (fst k), CScalar (convert_scalar (snd (fst k)) (snd k))) : object).
    assert (handle_event (St data (cur :: rest) None h) (scalar_event k) = Ok (St data (cur :: rest) (Some (List.length h)) (h ++ [o]))) as G0.
    { unfold scalar_event. cbn [handle_event]. unfold alloc. cbn [st_data st_stack st_key st_heap]. unfold content_at. rewrite nth_old by exact L. rewrite E. reflexivity. }
    cbn [fst snd] in Ht.
    assert (Hr : ready (h ++ [o]) (CMap l) (Some (List.length h))).
    { split; [rewrite app_length; cbn [List.length]; lia |]. intros k' j Hi. clear - Hi F o.
      assert (exists x, In x done /\ pair_at lo h (k', j) x) as (x & Hx & (P1 & P2) & _).
      { induction F as [| a b l d Hab F IHF]; [destruct Hi |]. destruct Hi as [-> | Hi]; [exists b; split; [now left | exact Hab] |].
        destruct (IHF Hi) as (x & Hx & P). exists x. split; [now right | exact P]. }
      cbn [fst] in P1, P2. pose proof (some_lt _ _ _ P2) as L2. rewrite app_length; cbn [List.length]; lia. }
    destruct (Ht data cur rest (Some (List.length h)) (h ++ [o]) p (CMap l)) as (h1 & i & G & E1 & L1 & K1 & A1); [rewrite nth_old by exact L; exact E | exact Hr |].
    rewrite app_length in L1, A1, K1. cbn [List.length] in L1, A1, K1. cbn [put] in E1.
    destruct (IH data cur rest h1 p (set_item (h ++ [o]) l (List.length h) i) (last_value (val k) (mean t) done) lo E1) as (h2 & l2 & G2 & E2 & L2 & K2 & A2); [lia | exact Hc | |].
    + assert (keeps lo h h1) as Kp by (intros z Hz1 Hz2; rewrite K1 by lia; now apply nth_old).
      assert (nth_error h1 (List.length h) = Some o) as No by (rewrite K1 by lia; apply nth_new).
      clear - F Kp No A1 Hlo. induction F as [| [k' j] [x n] l d [[P1 P2] P3] F IHF].
      * constructor; [| constructor]. split; cbn [fst snd]; [split; [lia | exact No] | eapply at_mono; [| exact A1]; lia].
      * cbn [fst snd] in *. cbn [set_item last_value]. unfold same_key, content_at. rewrite nth_old by (eapply some_lt; exact P2). rewrite P2, nth_new. cbn [option_map snd].
        change (snd (val k)) with (convert_scalar (snd (fst k)) (snd k)). unfold o at 1. cbn [snd].
        destruct (value_eqb (snd x) (convert_scalar (snd (fst k)) (snd k))).
        -- constructor; [split; cbn [fst snd]; [split; [exact P1 | eapply keeps_some; eassumption] | eapply at_mono; [| exact A1]; lia] |].
           eapply Forall2_impl'; [| exact F]. intros [k2 j2] y [[Q1 Q2] Q3]. split; [split; [exact Q1 | eapply keeps_some; eassumption] | eapply at_keeps; eassumption].
        -- constructor; [split; cbn [fst snd]; [split; [exact P1 | eapply keeps_some; eassumption] | eapply at_keeps; eassumption] | exact IHF].
    + exists h2, l2. cbn [app]. change (scalar_event k :: events t ++ flat_map (fun kv => scalar_event (fst kv) :: events (snd kv)) items) with ([scalar_event k] ++ (events t ++ flat_map (fun kv => scalar_event (fst kv) :: events (snd kv)) items)).
      cbn [app handle_events]. rewrite G0. cbn [bind]. rewrite events_app, G. cbn [bind]. split; [exact G2 |]. split; [exact E2 |]. split; [lia |].
      split; [intros j Hj Hn; rewrite K2 by (lia || assumption); rewrite K1 by (lia || assumption); now apply nth_old |].
      exact A2.
Qed.
Lemma mapping_body p items : Forall (fun kv => adds (events (snd kv)) (mean (snd kv))) items ->
  forall data n rest h lo, nth_error h n = Some (p, CMap []) -> (lo <= n)%nat -> (List.length h = S n)%nat ->
  exists h', handle_events (St data (n :: rest) None h) (flat_map (fun kv => scalar_event (fst kv) :: events (snd kv)) items ++ [MappingEnd]) = Ok (St data rest None h') /\
    (List.length h <= List.length h')%nat /\ (forall j, (j < n)%nat -> nth_error h' j = nth_error h j) /\ at_ lo h' n (mean (TMap p items)).
Proof.
  intros H data n rest h lo E Hlo L. destruct (add_pairs items H data n rest h p [] [] (S n) E) as (h2 & l & G & E2 & L2 & K2 & A2); [lia | lia | constructor |].
  exists h2. rewrite events_app, G. cbn [bind handle_events handle_event st_stack st_data st_key st_heap]. split; [reflexivity |]. split; [exact L2 |].
  split; [intros j Hj; apply K2; lia |]. cbn [meaning]. apply at_map. split; [exact Hlo |]. exists l. split; [exact E2 |].
  eapply Forall2_impl'; [| exact A2]. intros kj x [[P1 P2] P3]. split; [split; [lia | exact P2] | eapply at_mono; [| exact P3]; lia].
Qed.
Lemma sequence_body p items : Forall (fun t => adds (events t) (mean t)) items ->
  forall data n rest h lo, nth_error h n = Some (p, CSeq []) -> (lo <= n)%nat -> (List.length h = S n)%nat ->
  exists h', handle_events (St data (n :: rest) None h) (flat_map events items ++ [SequenceEnd]) = Ok (St data rest None h') /\
    (List.length h <= List.length h')%nat /\ (forall j, (j < n)%nat -> nth_error h' j = nth_error h j) /\ at_ lo h' n (mean (TSeq p items)).
Proof.
  intros H data n rest h lo E Hlo L. destruct (add_items items H data n rest h p [] (S n) E) as (h2 & l & G & E2 & L2 & K2 & A2); [lia | lia |].
  exists h2. rewrite events_app, G. cbn [bind handle_events handle_event st_stack st_data st_key st_heap]. split; [reflexivity |]. split; [exact L2 |].
  split; [intros j Hj; apply K2; lia |]. cbn [meaning]. apply at_seq. split; [exact Hlo |]. exists l. split; [exact E2 |].
  eapply Forall2_impl'; [| exact A2]. intros kj x P3. eapply at_mono; [| exact P3]; lia.
Qed.
Lemma tree_adds t : adds (events t) (mean t).
Proof.
  induction t as [x | p items IH | p items IH] using tree_ind'.
  - apply add_scalar.
  - pose proof IH as H.
    intros data cur rest key h q c E R. destruct (open_collection data cur rest key h q c (p, CMap []) E R) as (h1 & G & E1 & L1 & N1 & K1).
    destruct (mapping_body p items H data (List.length h) (cur :: rest) h1 (List.length h) N1) as (h2 & G2 & L2 & K2 & A2); [lia | exact L1 |].
    exists h2, (List.length h). cbn [events]. cbn [handle_events handle_event]. unfold alloc. cbn [st_data st_stack st_key st_heap]. rewrite G. cbn [bind push_object st_data st_stack st_heap].
    pose proof (some_lt _ _ _ E). split; [exact G2 |]. split; [rewrite K2 by lia; exact E1 |]. split; [lia |]. split; [| exact A2].
    intros j Hj Hn. rewrite K2 by lia. now apply K1.
  - pose proof IH as H.
    intros data cur rest key h q c E R. destruct (open_collection data cur rest key h q c (p, CSeq []) E R) as (h1 & G & E1 & L1 & N1 & K1).
    destruct (sequence_body p items H data (List.length h) (cur :: rest) h1 (List.length h) N1) as (h2 & G2 & L2 & K2 & A2); [lia | exact L1 |].
    exists h2, (List.length h). cbn [events]. cbn [handle_events handle_event]. unfold alloc. cbn [st_data st_stack st_key st_heap]. rewrite G. cbn [bind push_object st_data st_stack st_heap].
    pose proof (some_lt _ _ _ E). split; [exact G2 |]. split; [rewrite K2 by lia; exact E1 |]. split; [lia |]. split; [| exact A2].
    intros j Hj Hn. rewrite K2 by lia. now apply K1.
Qed.

(** ** Documents *)
Lemma document t : is_collection t -> forall data h,
  exists h', handle_events (St data [] None h) (DocumentStart :: events t ++ [DocumentEnd]) = Ok (St (data ++ [List.length h]) [] None h') /\
    (forall j, (j < List.length h)%nat -> nth_error h' j = nth_error h j) /\ at_ (List.length h) h' (List.length h) (mean t).
Proof.
  intros C data h. cbn [handle_events handle_event bind]. destruct t as [x | p items | p items]; [destruct C | |]; cbn [events].
  - assert (Forall (fun kv => adds (events (snd kv)) (mean (snd kv))) items) as H by (apply Forall_forall; intros kv _; apply tree_adds).
    destruct (mapping_body p items H data (List.length h) [List.length h] (h ++ [(p, CMap [])]) (List.length h)) as (h2 & G2 & L2 & K2 & A2); [apply nth_new | lia | rewrite app_length; cbn [List.length]; lia |].
    exists h2. cbn [app handle_events handle_event]. unfold alloc, add_to_current_structure, push_object. cbn [st_data st_stack st_key st_heap bind].
    rewrite events_app, G2. cbn [bind handle_events handle_event st_data st_stack st_key st_heap]. split; [reflexivity |]. split; [| exact A2].
    intros j Hj. rewrite K2 by exact Hj. now apply nth_old.
  - assert (Forall (fun t => adds (events t) (mean t)) items) as H by (apply Forall_forall; intros kv _; apply tree_adds).
    destruct (sequence_body p items H data (List.length h) [List.length h] (h ++ [(p, CSeq [])]) (List.length h)) as (h2 & G2 & L2 & K2 & A2); [apply nth_new | lia | rewrite app_length; cbn [List.length]; lia |].
    exists h2. cbn [app handle_events handle_event]. unfold alloc, add_to_current_structure, push_object. cbn [st_data st_stack st_key st_heap bind].
    rewrite events_app, G2. cbn [bind handle_events handle_event st_data st_stack st_key st_heap]. split; [reflexivity |]. split; [| exact A2].
    intros j Hj. rewrite K2 by exact Hj. now apply nth_old.
Qed.
Lemma at_low h h' n : forall lo i, at_ lo h i n -> keeps lo h h' -> at_ lo h' i n.
Proof. intros lo i H K. eapply at_keeps; eassumption. Qed.
Lemma documents docs : Forall is_collection docs -> forall data h,
  exists ids h', handle_events (St data [] None h) (flat_map (fun t => DocumentStart :: events t ++ [DocumentEnd]) docs) = Ok (St (data ++ ids) [] None h') /\
    (forall j, (j < List.length h)%nat -> nth_error h' j = nth_error h j) /\ Forall2 (stands_for h') ids (map mean docs).
Proof.
  induction docs as [| t docs IH]; intros C data h.
  - exists [], h. rewrite app_nil_r. repeat split; auto. constructor.
  - inversion C as [| ? ? C1 C2]; subst.
    destruct (document t C1 data h) as (h1 & G1 & K1 & A1). destruct (IH C2 (data ++ [List.length h]) h1) as (ids & h2 & G2 & K2 & A2).
    exists (List.length h :: ids), h2. cbn [flat_map]. rewrite events_app, G1. cbn [bind]. rewrite G2, <- app_assoc. split; [reflexivity |].
    assert (List.length h <= List.length h1)%nat as Ll.
    { destruct (mean t) as [p v | p l | p l]; [apply at_scalar in A1 as [_ E] | apply at_map in A1 as (_ & ? & E & _) | apply at_seq in A1 as (_ & ? & E & _)]; apply some_lt in E; lia. }
    split; [intros j Hj; rewrite K2 by lia; now apply K1 |]. cbn [map]. constructor; [| exact A2]. eapply at_stands, at_keeps; [| exact A1]. intros j _ Hj. now apply K2.
Qed.
Theorem parse_right docs : Forall is_collection docs ->
  exists ids h, parse_events (stream docs) = Ok (ids, h) /\ Forall2 (stands_for h) ids (map mean docs).
Proof.
  intros C. destruct (documents docs C [] []) as (ids & h & G & _ & A). exists ids, h. split; [| exact A].
  unfold parse_events, stream. cbn [handle_events handle_event bind]. rewrite events_app. unfold start_state. rewrite G. reflexivity.
Qed.
End Convert.

(** An object stands for one thing only. *)
Lemma stands_unique h n : forall i n', stands_for h i n -> stands_for h i n' -> n = n'.
Proof.
  induction n as [p v | p items IH | p items IH] using node_ind'; intros i n' H H'.
  - cbn [stands_for] in H. destruct n' as [p' v' | p' items' | p' items']; cbn [stands_for] in H'; [congruence | destruct H' as (l & E & _); congruence ..].
  - destruct H as (l & E & H). destruct n' as [p' v' | p' items' | p' items']; cbn [stands_for] in H'; [congruence | | destruct H' as (? & ? & _); congruence].
    destruct H' as (l' & E' & H'). assert (p = p' /\ l = l') as [-> ->] by (split; congruence). f_equal. clear E E'. revert items' l' H H'.
    induction IH as [| [[pk v] n] items Hn _ IHi]; intros [| [[pk' v'] n'] items'] [| [k j] l']; cbn; intros H H'; try contradiction; [reflexivity |].
    destruct H as (A1 & A2 & A3), H' as (B1 & B2 & B3). f_equal; [| eapply IHi; eassumption]. cbn [snd] in Hn. rewrite (Hn j n' A2 B2). congruence.
  - destruct H as (l & E & H). destruct n' as [p' v' | p' items' | p' items']; cbn [stands_for] in H'; [congruence | destruct H' as (? & ? & _); congruence |].
    destruct H' as (l' & E' & H'). assert (p = p' /\ l = l') as [-> ->] by (split; congruence). f_equal. clear E E'. revert items' l' H H'.
    induction IH as [| n items Hn _ IHi]; intros [| n' items'] [| j l']; cbn; intros H H'; try contradiction; [reflexivity |].
    destruct H as (A1 & A2), H' as (B1 & B2). f_equal; [exact (Hn j n' A1 B1) | eapply IHi; eassumption].
Qed.
