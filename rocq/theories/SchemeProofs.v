(** * Proofs about the validation of definitions (C32, C34, C35). *)
From Verif Require Import Base Dict Value StrUtils Cli DictSource SchemeValidator SpecScheme SchemeNested.
From Coq Require Import Permutation Sorted.

(** ** Repeatable positionals *)
Definition spec_numbers (l : list (Z * dict)) : Prop :=
  forall n p m q, In (n, p) l -> In (m, q) l -> is_repeatable p = true ->
    (m <= n)%Z /\ (is_repeatable q = true -> m = n).

Lemma insert_perm x l : Permutation (insert_number x l) (x :: l).
Proof.
  induction l as [|y l IH]; cbn [insert_number]; [reflexivity|].
  destruct (fst x <=? fst y)%Z; [reflexivity|]. rewrite IH. apply perm_swap.
Qed.
Lemma sort_perm l : Permutation (sort_numbers l) l.
Proof.
  induction l as [|x l IH]; cbn; [reflexivity|]. rewrite insert_perm. constructor; exact IH.
Qed.
Definition le_num (a b : Z * dict) : Prop := (fst a <= fst b)%Z.
Lemma insert_sorted x l : StronglySorted le_num l -> StronglySorted le_num (insert_number x l).
Proof.
  induction 1 as [|y l HS IH HF]; cbn [insert_number]; [repeat constructor|].
  destruct (fst x <=? fst y)%Z eqn:E.
  - constructor; [constructor; assumption|]. apply Z.leb_le in E.
    constructor; [exact E|]. eapply Forall_impl; [|exact HF]. unfold le_num. intros z Hz. lia.
  - constructor; [exact IH|]. apply Z.leb_gt in E.
    eapply Permutation_Forall; [symmetry; apply insert_perm|].
    constructor; [unfold le_num; lia|exact HF].
Qed.
Lemma sort_sorted l : StronglySorted le_num (sort_numbers l).
Proof. induction l; cbn; [constructor|apply insert_sorted; assumption]. Qed.

Lemma loop_some r0 l r : repeatable_loop (Some r0) l = Ok r <->
  r = Some r0 /\ forall n p, In (n, p) l -> (n <= r0)%Z /\ (is_repeatable p = true -> n = r0).
Proof.
  revert r. induction l as [|[n p] l IH]; intros r; cbn [repeatable_loop].
  - split; [intros H; injection H as <-; split; [reflexivity|intros ? ? []]|intros [-> _]; reflexivity].
  - destruct (is_repeatable p) eqn:Ep.
    + destruct (r0 =? n)%Z eqn:E.
      * apply Z.eqb_eq in E. subst n. rewrite IH. split; intros [-> H]; split; auto.
        -- intros n q [Hq|Hq]; [injection Hq as <- <-; split; [lia|auto]|apply H; exact Hq].
        -- intros n q Hq. apply H; right; exact Hq.
      * apply Z.eqb_neq in E. split; [discriminate|]. intros [_ H]. exfalso.
        destruct (H n p (or_introl eq_refl)) as [_ H']. apply E. symmetry. apply H'; exact Ep.
    + destruct (n >? r0)%Z eqn:E.
      * split; [discriminate|]. intros [_ H]. destruct (H n p (or_introl eq_refl)) as [H' _].
        apply Z.gtb_lt in E. lia.
      * rewrite IH. split; intros [-> H]; split; auto.
        -- intros m q [Hq|Hq]; [|apply H; exact Hq]. injection Hq as <- <-.
           rewrite Z.gtb_ltb in E. apply Z.ltb_ge in E. split; [exact E|congruence].
        -- intros m q Hq. apply H; right; exact Hq.
Qed.

Definition repeats (l : list (Z * dict)) : Prop := exists n p, In (n, p) l /\ is_repeatable p = true.

Lemma loop_none l : StronglySorted le_num l -> forall r,
  repeatable_loop None l = Ok r <->
  spec_numbers l /\ ((r = None /\ ~ repeats l) \/
                     exists n p, r = Some n /\ In (n, p) l /\ is_repeatable p = true).
Proof.
  induction 1 as [|[n p] l HS IH HF]; intros r; cbn [repeatable_loop].
  - split.
    + intros H; injection H as <-. split; [intros ? ? ? ? []|]. left; split; [reflexivity|].
      intros (n & p & [] & _).
    + intros [_ [[-> _]|(n & p & _ & [] & _)]]; reflexivity.
  - destruct (is_repeatable p) eqn:Ep.
    + rewrite loop_some. split.
      * intros [-> H]. split; [|right; exists n, p; split; [reflexivity|split; [left; reflexivity|exact Ep]]].
        assert (H' : forall m q, In (m, q) ((n, p) :: l) -> (m <= n)%Z /\ (is_repeatable q = true -> m = n)).
        { intros m q [Hq|Hq]; [injection Hq as <- <-; split; [lia|auto]|apply H; exact Hq]. }
        intros a pa b pb Ha Hb Hr. destruct (H' a pa Ha) as [_ Ha']. rewrite (Ha' Hr).
        apply H' with (q := pb). exact Hb.
      * intros [HSp HR].
        assert (H' : forall m q, In (m, q) ((n, p) :: l) -> (m <= n)%Z /\ (is_repeatable q = true -> m = n)).
        { intros m q Hq. apply (HSp n p m q (or_introl eq_refl) Hq Ep). }
        split.
        -- destruct HR as [[_ HR]|(m & q & -> & Hm & Hq)].
           ++ exfalso. apply HR. exists n, p. split; [left; reflexivity|exact Ep].
           ++ f_equal. apply (H' m q Hm). exact Hq.
        -- intros m q Hq. apply H' with (q := q). right; exact Hq.
    + rewrite IH. clear IH. split.
      * intros [HSp HR]. split.
        -- intros a pa b pb [Ha|Ha] Hb Hr; [injection Ha as <- <-; congruence|].
           destruct Hb as [Hb|Hb]; [|apply (HSp a pa b pb); assumption].
           injection Hb as <- <-. split; [|congruence]. rewrite Forall_forall in HF.
           apply (HF _ Ha).
        -- destruct HR as [[-> HR]|(m & q & -> & Hm & Hq)].
           ++ left; split; [reflexivity|]. intros (m & q & [Hm|Hm] & Hq).
              ** injection Hm as <- <-; congruence.
              ** apply HR; exists m, q; auto.
           ++ right. exists m, q. split; [reflexivity|split; [right; exact Hm|exact Hq]].
      * intros [HSp HR]. split.
        -- intros a pa b pb Ha Hb. apply (HSp a pa b pb); right; assumption.
        -- destruct HR as [[-> HR]|(m & q & -> & [Hm|Hm] & Hq)].
           ++ left; split; [reflexivity|]. intros (m & q & Hm & Hq). apply HR. exists m, q. split; [right|]; assumption.
           ++ injection Hm as <- <-; congruence.
           ++ right. exists m, q; auto.
Qed.

Lemma loop_sorted l r : repeatable_loop None (sort_numbers l) = Ok r <->
  spec_numbers l /\ ((r = None /\ ~ repeats l) \/ (exists n, r = Some n) /\ repeats l /\
    forall n, r = Some n -> exists p, In (n, p) l /\ is_repeatable p = true).
Proof.
  rewrite (loop_none _ (sort_sorted l)).
  assert (HP : forall x, In x (sort_numbers l) <-> In x l).
  { intros x. split; apply Permutation_in; [|symmetry]; apply sort_perm. }
  assert (HS : spec_numbers (sort_numbers l) <-> spec_numbers l).
  { unfold spec_numbers. split; intros H n p m q Hn Hm; apply (H n p m q); apply HP; assumption. }
  assert (HR : repeats (sort_numbers l) <-> repeats l).
  { unfold repeats. split; intros (n & p & H1 & H2); exists n, p; split; try assumption; apply HP; assumption. }
  rewrite HS, HR. split; intros [H1 H2]; split; try assumption.
  - destruct H2 as [H2|(n & p & -> & Hn & Hp)]; [left; exact H2|right].
    apply HP in Hn. split; [eauto|]. split; [exists n, p; auto|].
    intros m Hm. injection Hm as <-. exists p; auto.
  - destruct H2 as [H2|((n & ->) & _ & H2)]; [left; exact H2|right].
    destruct (H2 n eq_refl) as (p & Hn & Hp). exists n, p. split; [reflexivity|]. split; [apply HP|]; assumption.
Qed.

Lemma with_numbers_ok l nl : with_numbers l = Ok nl ->
  forall n p, In (n, p) nl <-> In (VDict p) l /\ get_number p = Ok n.
Proof.
  revert nl. induction l as [|v l IH]; intros nl H n p; cbn [with_numbers] in H.
  - injection H as <-. cbn. tauto.
  - destruct v as [| | | | | |d]; try discriminate. apply bind_ok' in H as (m & H1 & H).
    apply bind_ok' in H as (r & H2 & H). injection H as <-. cbn [In]. rewrite (IH _ H2). split.
    + intros [E|[H3 H4]]; [injection E as -> ->; auto|auto].
    + intros [[E|H3] H4]; [injection E as ->; left; rewrite H1 in H4; injection H4 as ->; reflexivity|auto].
Qed.
Lemma with_numbers_total l : (forall v, In v l -> exists p n, v = VDict p /\ get_number p = Ok n) ->
  exists nl, with_numbers l = Ok nl.
Proof.
  induction l as [|v l IH]; intros H; [exists []; reflexivity|].
  destruct (H v (or_introl eq_refl)) as (p & n & -> & Hn).
  destruct IH as [nl Hnl]; [intros w Hw; apply H; right; exact Hw|].
  exists ((n, p) :: nl). cbn. rewrite Hn, Hnl. reflexivity.
Qed.

Lemma positional_of_iff v n rep : positional_of v n rep <->
  exists p, v = VDict p /\ get_number p = Ok n /\ rep = is_repeatable p.
Proof.
  unfold positional_of, get_number, is_repeatable. split; intros (p & -> & H & ->); exists p; split; auto.
  - split; [|reflexivity]. destruct H as [->|(b & -> & ->)]; reflexivity.
  - split; [|reflexivity]. destruct (vget (s "number") p) as [[| | | | | |]|]; try discriminate;
      injection H as <-; [right; eauto|left; reflexivity].
Qed.

Lemma last_repeatable_iff l nl : with_numbers l = Ok nl -> last_repeatable l <-> spec_numbers nl.
Proof.
  intros H. pose proof (with_numbers_ok _ _ H) as HW. unfold last_repeatable, spec_numbers. split.
  - intros HL n p m q Hn Hm Hr. apply HW in Hn as [Hn1 Hn2]. apply HW in Hm as [Hm1 Hm2].
    apply (HL (VDict p) n (VDict q) m (is_repeatable q)); auto; apply positional_of_iff; eauto.
  - intros HL v n w m r Hv Hw Pv Pw. apply positional_of_iff in Pv as (p & -> & Hp & Hr).
    apply positional_of_iff in Pw as (q & -> & Hq & ->).
    apply (HL n p m q); auto; apply HW; auto.
Qed.
Lemma some_repeatable_iff l nl : with_numbers l = Ok nl -> some_repeatable l <-> repeats nl.
Proof.
  intros H. pose proof (with_numbers_ok _ _ H) as HW. unfold some_repeatable, repeats. split.
  - intros (v & n & Hv & P). apply positional_of_iff in P as (p & -> & Hp & Hr).
    exists n, p. split; [apply HW; auto|congruence].
  - intros (n & p & Hn & Hr). apply HW in Hn as [H1 H2]. exists (VDict p), n. split; [exact H1|].
    apply positional_of_iff. exists p; auto.
Qed.

(** ** Ranges *)
Lemma check_range_iff start stop step : check_range [VInt start; VInt stop; VInt step] = Ok tt <->
  step <> 0%Z /\ in_range start stop step start.
Proof.
  unfold check_range, int_of, in_range. destruct (step =? 0)%Z eqn:E0.
  - apply Z.eqb_eq in E0. split; [discriminate|tauto].
  - apply Z.eqb_neq in E0.
    destruct ((step >? 0) && (start >? stop))%Z eqn:E1.
    { apply andb_true_iff in E1 as [E1 E2]. split; [discriminate|].
      intros (_ & k & _ & _ & H & _). apply Z.gtb_lt in E1, E2. specialize (H E1). lia. }
    destruct ((step <? 0) && (stop >? start))%Z eqn:E2.
    { apply andb_true_iff in E2 as [E2 E3]. split; [discriminate|].
      intros (_ & k & _ & _ & _ & H). apply Z.gtb_lt in E3. apply Z.ltb_lt in E2. specialize (H E2). lia. }
    split; [intros _|reflexivity]. split; [exact E0|]. exists 0%Z.
    apply andb_false_iff in E1, E2. rewrite Z.gtb_ltb in *. rewrite !Z.gtb_ltb in *.
    rewrite !Z.ltb_ge in *. repeat split; lia.
Qed.
Lemma check_range_default start stop :
  check_range [VInt start; VInt stop] = check_range [VInt start; VInt stop; VInt 1].
Proof. reflexivity. Qed.
Lemma check_range_shape args : check_range args = Ok tt -> exists start stop step,
  (length args = 2 /\ step = 1%Z \/ length args = 3 /\ int_of (nth 2 args VNone) = Some step) /\
  int_of (nth 0 args VNone) = Some start /\ int_of (nth 1 args VNone) = Some stop /\
  check_range [VInt start; VInt stop; VInt step] = Ok tt.
Proof.
  destruct args as [|a [|b [|c [|]]]]; try discriminate; unfold check_range at 1.
  - destruct (int_of a) as [x|] eqn:Ea; [|discriminate].
    destruct (int_of b) as [y|] eqn:Eb; [|discriminate]. intros H.
    exists x, y, 1%Z. cbn [nth length]. repeat split; auto.
  - destruct (int_of a) as [x|] eqn:Ea; [|discriminate].
    destruct (int_of b) as [y|] eqn:Eb; [|discriminate].
    destruct (int_of c) as [z|] eqn:Ec; [|discriminate]. intros H.
    exists x, y, z. cbn [nth length]. repeat split; auto.
Qed.

(** ** The tree of definitions *)
Definition at_ (f : forest) (q : list str) : option dict := option_map n_def (find_def q f).

Inductive wf : forest -> Prop :=
| wf_intro f : NoDup (map fst f) -> (forall k t, In (k, t) f -> wf (n_subs t)) -> wf f.

Lemma find_def_cons p q f : q <> [] -> find_def (p :: q) f =
  match dget str_eqb p f with Some t => find_def q (n_subs t) | None => None end.
Proof. destruct q; [congruence|reflexivity]. Qed.

Lemma dset_In_inv {K V} (eqb : K -> K -> bool) k v (d : list (K * V)) k2 v2 :
  In (k2, v2) (dset eqb k v d) -> In (k2, v2) d \/ v2 = v.
Proof.
  induction d as [|[k' v'] d IH]; cbn; [intros [E|[]]; injection E as <- <-; auto|].
  destruct (eqb k k'); cbn; intros [E|H].
  - injection E as <- <-; auto.
  - auto.
  - auto.
  - destruct (IH H); auto.
Qed.

Lemma insert_wf path sub d : forall f f', wf f -> insert_def path sub d f = Ok f' -> wf f'.
Proof.
  induction path as [|p path IH]; intros f f' Hf H; cbn [insert_def] in H.
  - destruct (dmem str_eqb sub f) eqn:E; [discriminate|]. injection H as <-.
    inversion Hf as [? Hn Hs]; subst. constructor; [apply dset_NoDup; [exact str_eqb_spec|exact Hn]|].
    intros k t Hk. apply dset_In_inv in Hk as [Hk| ->]; [apply (Hs k t Hk)|].
    cbn. constructor; [constructor|intros ? ? []].
  - destruct (dget str_eqb p f) as [[d' f1]|] eqn:E; [|discriminate].
    apply bind_ok' in H as (f2 & H1 & H2). injection H2 as <-.
    inversion Hf as [? Hn Hs]; subst. constructor; [apply dset_NoDup; [exact str_eqb_spec|exact Hn]|].
    intros k t Hk. apply dset_In_inv in Hk as [Hk| ->]; [apply (Hs k t Hk)|].
    cbn. apply (IH f1); [|exact H1]. apply dget_In in E; [|exact str_eqb_spec]. apply (Hs _ _ E).
Qed.

Lemma insert_iff path sub d : forall f,
  (exists f', insert_def path sub d f = Ok f') <->
  (path = [] \/ at_ f path <> None) /\ at_ f (path ++ [sub]) = None.
Proof.
  induction path as [|p path IH]; intros f; cbn [insert_def app].
  - unfold at_. cbn [find_def]. unfold dmem. destruct (dget str_eqb sub f) eqn:E.
    + split; [intros [f' H]; discriminate|intros [_ H]; discriminate].
    + split; [intros _; split; [left; reflexivity|reflexivity]|]. intros _. eauto.
  - unfold at_. rewrite (find_def_cons p (path ++ [sub])) by (destruct path; discriminate).
    destruct (dget str_eqb p f) as [[d' f1]|] eqn:E.
    + cbn [n_subs]. specialize (IH f1). unfold at_ in IH. split.
      * intros [f' H]. apply bind_ok' in H as (f2 & H1 & _).
        destruct (proj1 IH (ex_intro _ f2 H1)) as [H2 H3]. split; [right|exact H3].
        destruct path as [|p2 path]; [cbn [find_def]; rewrite E; discriminate|].
        rewrite find_def_cons by discriminate. rewrite E. cbn [n_subs].
        destruct H2 as [H2|H2]; [discriminate|exact H2].
      * intros [[H2|H2] H3]; [discriminate|]. destruct (proj2 IH) as [f2 Hf2].
        { split; [|exact H3]. destruct path as [|p2 path]; [left; reflexivity|right].
          rewrite find_def_cons in H2 by discriminate. rewrite E in H2. exact H2. }
        rewrite Hf2. cbn [bind]. eauto.
    + split; [intros [f' H]; discriminate|]. intros [[H|H] _]; [discriminate|].
      exfalso. apply H. destruct path; cbn [find_def]; rewrite E; reflexivity.
Qed.

Lemma insert_at path sub d : forall f f', insert_def path sub d f = Ok f' -> forall q,
  (q = path ++ [sub] -> at_ f' q = Some d) /\ (q <> path ++ [sub] -> at_ f' q = at_ f q).
Proof.
  induction path as [|p path IH]; intros f f' H q; cbn [insert_def app] in *.
  - destruct (dmem str_eqb sub f) eqn:E; [discriminate|]. injection H as <-.
    unfold at_. split.
    + intros ->. cbn [find_def]. rewrite dget_dset_same by exact str_eqb_spec. reflexivity.
    + intros Hq. destruct q as [|a q]; [reflexivity|]. destruct q as [|b q].
      * cbn [find_def]. rewrite dget_dset_other; [reflexivity|exact str_eqb_spec|congruence].
      * rewrite !find_def_cons by discriminate. destruct (str_eqb_spec sub a) as [->|Hn].
        -- rewrite dget_dset_same by exact str_eqb_spec. unfold dmem in E.
           destruct (dget str_eqb a f); [discriminate|]. cbn [n_subs]. destruct q; reflexivity.
        -- rewrite dget_dset_other; [reflexivity|exact str_eqb_spec|exact Hn].
  - destruct (dget str_eqb p f) as [[d' f1]|] eqn:E; [|discriminate].
    apply bind_ok' in H as (f2 & H1 & H2). injection H2 as <-.
    specialize (IH _ _ H1). unfold at_ in *. destruct q as [|a q].
    { split; [discriminate|reflexivity]. }
    destruct (str_eqb_spec p a) as [<-|Hn].
    + destruct q as [|b q].
      * split; [intros H; destruct path; discriminate|]. intros _. cbn [find_def].
        rewrite dget_dset_same, E by exact str_eqb_spec. reflexivity.
      * rewrite !find_def_cons by discriminate. rewrite dget_dset_same, E by exact str_eqb_spec.
        cbn [n_subs]. specialize (IH (b :: q)). split.
        -- intros H. injection H as H. apply IH. exact H.
        -- intros H. apply IH. congruence.
    + split; [congruence|]. intros _.
      assert (G : dget str_eqb a (dset str_eqb p (DNode d' f2) f) = dget str_eqb a f)
        by (apply dget_dset_other; [exact str_eqb_spec|exact Hn]).
      destruct q; [cbn [find_def]|rewrite !find_def_cons by discriminate]; rewrite G; reflexivity.
Qed.

Lemma add_definition_iff f v f' : add_definition f v = Ok f' <->
  exists d path sub, names_program v /\ v = VDict d /\ words v = path ++ [sub] /\
    insert_def path sub d f = Ok f'.
Proof.
  unfold add_definition, names_program. split.
  - destruct v as [| | | | | |d]; try discriminate.
    destruct (vget (s "prog") d) as [[| | | |p| |]|] eqn:E; try discriminate.
    intros H. apply bind_ok' in H as ([] & H1 & H).
    destruct (rev (split_c SP p)) as [|sub rpath] eqn:Er; [discriminate|].
    exists d, (rev rpath), sub. split; [exists d, p; auto|]. split; [reflexivity|].
    split; [|exact H]. unfold words. rewrite E.
    rewrite <- (rev_involutive (split_c SP p)), Er. reflexivity.
  - intros (d & path & sub & (d' & p & Ev & E & H1) & -> & Hw & H).
    injection Ev as <-. rewrite E, H1. cbn [bind]. unfold words in Hw. rewrite E in Hw.
    rewrite Hw, rev_app_distr. cbn [rev app]. rewrite rev_involutive. exact H.
Qed.

Lemma fold_res_snoc {A B} (g : A -> B -> res A) l x a :
  fold_res g (l ++ [x]) a = do a' <- fold_res g l a; g a' x.
Proof.
  revert a. induction l as [|y l IH]; intros a; cbn [app fold_res bind].
  - destruct (g a x); reflexivity.
  - destruct (g a y); cbn [bind]; [reflexivity|apply IH].
Qed.

Lemma words_nonempty v : names_program v -> words v <> [].
Proof. intros (d & p & -> & E & _). unfold words. rewrite E. apply split_c_nonnil. Qed.

Lemma parents_first_snoc docs v : parents_first (docs ++ [v]) <->
  parents_first docs /\ (removelast (words v) = [] \/ In (removelast (words v)) (map words docs)).
Proof.
  unfold parents_first. split.
  - intros H. split.
    + intros b w a ->. apply (H b w (a ++ [v])). rewrite <- app_assoc. reflexivity.
    + apply (H docs v []). reflexivity.
  - intros [H1 H2] b w a E. destruct a as [|x a] using rev_ind.
    + apply app_inj_tail in E as [-> ->]. exact H2.
    + clear IHa. rewrite app_comm_cons, app_assoc in E. apply app_inj_tail in E as [-> _].
      apply (H1 b w a). reflexivity.
Qed.
Lemma NoDup_snoc {A} (l : list A) x : NoDup (l ++ [x]) <-> NoDup l /\ ~ In x l.
Proof.
  split.
  - intros H. apply NoDup_remove in H. rewrite app_nil_r in H. exact H.
  - intros [H1 H2]. apply (Permutation_NoDup (Permutation_cons_append l x)).
    constructor; assumption.
Qed.

Lemma make_tree docs :
  ((exists f, fold_res add_definition docs [] = Ok f) <->
   Forall names_program docs /\ NoDup (map words docs) /\ parents_first docs) /\
  forall f, fold_res add_definition docs [] = Ok f -> wf f /\
    forall q d, at_ f q = Some d <-> exists v, In v docs /\ v = VDict d /\ words v = q /\ q <> [].
Proof.
  induction docs as [|v docs IH] using rev_ind.
  - split.
    + split; [intros _|intros _; exists []; reflexivity].
      split; [constructor|split; [constructor|]]. intros b w a E. destruct b; discriminate.
    + intros f H. cbn in H. injection H as <-. split; [constructor; [constructor|intros ? ? []]|].
      intros q d. split; [destruct q as [|x [|y q]]; discriminate|]. intros (v & [] & _).
  - destruct IH as [IH1 IH2]. rewrite fold_res_snoc.
    assert (Hat : forall f, fold_res add_definition docs [] = Ok f -> forall q,
      q <> [] -> Forall names_program docs -> at_ f q <> None <-> In q (map words docs)).
    { intros f Hf q Hq HF. destruct (IH2 f Hf) as [_ H]. split.
      - intros Hn. destruct (at_ f q) as [d|] eqn:E; [|congruence].
        apply H in E as (w & Hw & _ & <- & _). apply in_map; exact Hw.
      - intros Hi. apply in_map_iff in Hi as (w & Hw & Hin).
        rewrite Forall_forall in HF. destruct (HF _ Hin) as (d & p & -> & _).
        intros Hn. assert (E : at_ f q = Some d) by (apply H; exists (VDict d); auto). congruence. }
    split.
    + split.
      * intros [f' H]. apply bind_ok' in H as (f & H1 & H2).
        destruct (proj1 IH1 (ex_intro _ f H1)) as (HF & HN & HP).
        apply add_definition_iff in H2 as (d & path & sub & Hv & -> & Hw & H2).
        destruct (proj1 (insert_iff path sub d f) (ex_intro _ f' H2)) as [G1 G2].
        rewrite Forall_app, map_app. cbn [map]. rewrite NoDup_snoc, parents_first_snoc.
        split; [split; [exact HF|constructor; [exact Hv|constructor]]|].
        split; [split; [exact HN|]|split; [exact HP|]].
        -- rewrite Hw. intros Hi. apply (Hat f H1) in Hi; [congruence|destruct path; discriminate|exact HF].
        -- rewrite Hw, removelast_last. destruct G1 as [->|G1]; [left; reflexivity|].
           destruct path as [|x path]; [left; reflexivity|right].
           apply (Hat f H1); [discriminate|exact HF|exact G1].
      * rewrite Forall_app, map_app. cbn [map]. rewrite NoDup_snoc, parents_first_snoc.
        intros ([HF HFv] & [HN HNv] & [HP HPv]). inversion HFv as [|? ? Hv _]; subst.
        destruct (proj2 IH1) as [f Hf]; [auto|].
        rewrite Hf. cbn [bind]. pose proof Hv as (d & p & -> & Ep & Hval).
        pose proof (words_nonempty _ Hv) as Hne. destruct (exists_last Hne) as (path & sub & Hw).
        rewrite Hw in *. rewrite removelast_last in HPv.
        destruct (proj2 (insert_iff path sub d f)) as [f' Hf'].
        { split.
          - destruct path as [|x path]; [left; reflexivity|right].
            destruct HPv as [HPv|HPv]; [discriminate|]. apply (Hat f Hf); [discriminate|exact HF|exact HPv].
          - destruct (at_ f (path ++ [sub])) as [d2|] eqn:E; [|reflexivity]. exfalso. apply HNv.
            apply (Hat f Hf); [destruct path; discriminate|exact HF|congruence]. }
        exists f'. apply add_definition_iff. exists d, path, sub. auto.
    + intros f' H. apply bind_ok' in H as (f & H1 & H2).
      destruct (IH2 f H1) as [Hwf Hf].
      destruct (proj1 IH1 (ex_intro _ f H1)) as (HF & HN & HP).
      apply add_definition_iff in H2 as (d & path & sub & Hv & -> & Hw & H2).
      split; [apply (insert_wf path sub d f); assumption|].
      destruct (proj1 (insert_iff path sub d f) (ex_intro _ f' H2)) as [_ G2].
      intros q d'. destruct (insert_at _ _ _ _ _ H2 q) as [I1 I2].
      destruct (list_eq_dec str_eq_dec q (path ++ [sub])) as [->|Hq].
      * rewrite I1 by reflexivity. split.
        -- intros E. injection E as <-. exists (VDict d). rewrite in_app_iff. cbn [In].
           repeat split; auto. destruct path; discriminate.
        -- intros (w & Hin & -> & Hww & Hne). apply in_app_iff in Hin as [Hin|[Hin|[]]]; [|congruence].
           exfalso. assert (E : at_ f (path ++ [sub]) = Some d') by (apply Hf; exists (VDict d'); auto).
           congruence.
      * rewrite I2 by exact Hq. rewrite Hf. split; intros (w & Hin & Hw' & Hww & Hne); exists w; repeat split; auto.
        -- apply in_app_iff; left; exact Hin.
        -- apply in_app_iff in Hin as [Hin|[Hin|[]]]; [exact Hin|]. subst w.
           exfalso. apply Hq. congruence.
Qed.

Lemma wf_subs f q t : wf f -> find_def q f = Some t -> wf (n_subs t).
Proof.
  revert f. induction q as [|p q IH]; intros f Hf H; [discriminate|].
  inversion Hf as [? Hn Hs]; subst. destruct q as [|p2 q].
  - cbn [find_def] in H. apply dget_In in H; [|exact str_eqb_spec]. apply (Hs _ _ H).
  - rewrite find_def_cons in H by discriminate. destruct (dget str_eqb p f) as [t'|] eqn:E; [|discriminate].
    apply (IH (n_subs t')); [|exact H]. apply dget_In in E; [|exact str_eqb_spec]. apply (Hs _ _ E).
Qed.
Lemma find_def_snoc f q p : q <> [] -> find_def (q ++ [p]) f =
  match find_def q f with Some t => dget str_eqb p (n_subs t) | None => None end.
Proof.
  revert f. induction q as [|x q IH]; intros f Hq; [congruence|]. cbn [app].
  rewrite find_def_cons by (destruct q; discriminate). destruct q as [|y q].
  - cbn [find_def app]. destruct (dget str_eqb x f); reflexivity.
  - rewrite (find_def_cons x (y :: q)) by discriminate. destruct (dget str_eqb x f); [|reflexivity].
    apply IH. discriminate.
Qed.
Lemma has_subs f q t : q <> [] -> find_def q f = Some t ->
  (nonempty (n_subs t) = true <-> exists p d, at_ f (q ++ [p]) = Some d).
Proof.
  intros Hq H. unfold at_. split.
  - destruct (n_subs t) as [|[p t'] l] eqn:E; [discriminate|]. intros _. exists p, (n_def t').
    rewrite find_def_snoc by exact Hq. rewrite H, E. cbn [dget]. rewrite str_eqb_refl. reflexivity.
  - intros (p & d & E). rewrite find_def_snoc in E by exact Hq. rewrite H in E.
    destruct (n_subs t); [discriminate|reflexivity].
Qed.

Lemma check_nodes_iff e f l : check_nodes e f l = Ok tt <->
  Forall (fun t => check_definition e (n_def t) = Ok tt /\
                   check_positionals_repeatable f (n_def t) = Ok tt) l.
Proof.
  induction l as [|t l IH]; cbn [check_nodes]; [split; [constructor|reflexivity]|]. split.
  - intros H. apply bind_ok' in H as ([] & H1 & H). apply bind_ok' in H as ([] & H2 & H).
    constructor; [auto|apply IH; exact H].
  - intros H. inversion H as [|? ? [H1 H2] H3]; subst. rewrite H1. cbn [bind]. rewrite H2. cbn [bind].
    apply IH; exact H3.
Qed.

Lemma each_iff g l : each g l = Ok tt <-> forall x, In x l -> g x = Ok tt.
Proof.
  induction l as [|x l IH]; cbn [each]; [split; [intros _ ? []|reflexivity]|]. split.
  - intros H. apply bind_ok' in H as ([] & H1 & H). intros y [<-|Hy]; [exact H1|].
    apply IH; assumption.
  - intros H. rewrite (H x (or_introl eq_refl)). cbn [bind]. apply IH. intros y Hy. apply H; right; exact Hy.
Qed.
Lemma on_list_iff g v : on_list g v = Ok tt <-> exists l, v = Some (VList l) /\ forall x, In x l -> g x = Ok tt.
Proof.
  unfold on_list. destruct v as [[| | | | |l|]|];
    try (split; [discriminate|intros (l' & H & _); discriminate]).
  rewrite each_iff. split; [intros H; exists l; auto|]. intros (l' & H & H'). injection H as <-. exact H'.
Qed.

Lemma checked_positionals e d : check_definition e d = Ok tt ->
  (vget (s "positionals") d = None \/ vget (s "positionals") d = Some VNone) \/
  exists l, vget (s "positionals") d = Some (VList l) /\
    forall v, In v l -> check_positional e (VList l) v = Ok tt.
Proof.
  unfold check_definition. intros H.
  repeat (apply bind_ok' in H as ([] & _ & H)).
  destruct (has_set d "positionals") eqn:E.
  - apply on_list_iff in H as (l & El & Hl). right. exists l. split; [exact El|].
    unfold getd in Hl. rewrite El in Hl. exact Hl.
  - left. unfold has_set in E. destruct (vget (s "positionals") d) as [[]|]; try discriminate; auto.
Qed.
Lemma checked_positional e ps v : check_positional e ps v = Ok tt ->
  exists p n, v = VDict p /\ get_number p = Ok n /\ (1 <= n)%Z.
Proof.
  destruct v as [| | | | | |p]; try discriminate. cbn [check_positional]. intros H.
  apply bind_ok' in H as ([] & _ & H). apply bind_ok' in H as (n & H1 & H).
  exists p, n. split; [reflexivity|]. split; [exact H1|].
  destruct (n <? 1)%Z eqn:E; [discriminate|]. apply Z.ltb_ge in E. exact E.
Qed.

Lemma check_repeatable_iff e f d p node :
  check_definition e d = Ok tt -> vget (s "prog") d = Some (VStr p) ->
  find_def (split_c SP p) f = Some node ->
  check_positionals_repeatable f d = Ok tt <->
  last_repeatable (positionals_of (VDict d)) /\
  (some_repeatable (positionals_of (VDict d)) -> nonempty (n_subs node) = false).
Proof.
  intros Hd Hp Hn. unfold check_positionals_repeatable, positionals_of.
  destruct (checked_positionals e d Hd) as [[H|H]|(l & H & Hl)]; rewrite H.
  1, 2: split; [intros _|reflexivity]; split;
    [intros ? ? ? ? ? []|intros (v & n & [] & _)].
  destruct (with_numbers_total l) as [nl Hnl].
  { intros v Hv. destruct (checked_positional e _ _ (Hl v Hv)) as (q & n & -> & Hq & _). eauto. }
  rewrite Hnl. cbn [bind]. rewrite (last_repeatable_iff l nl Hnl), (some_repeatable_iff l nl Hnl).
  rewrite bind_ok, Hp, Hn. split.
  - intros (r & Hr & H2). apply loop_sorted in Hr as [Hs Hc]. split; [exact Hs|].
    intros HR. destruct Hc as [[-> Hc]|((n & ->) & _)]; [contradiction|].
    destruct (nonempty (n_subs node)); [discriminate|reflexivity].
  - intros [Hs Hc]. assert (D : repeats nl \/ ~ repeats nl).
    { clear. induction nl as [|[n p] nl IH]; [right; intros (n & p & [] & _)|].
      destruct (is_repeatable p) eqn:E; [left; exists n, p; split; [left; reflexivity|exact E]|].
      destruct IH as [(m & q & H1 & H2)|IH]; [left; exists m, q; split; [right|]; assumption|].
      right. intros (m & q & [H1|H1] & H2); [injection H1 as -> ->; congruence|]. apply IH; exists m, q; auto. }
    destruct D as [D|D].
    + pose proof D as (n & q & H1 & H2). exists (Some n). split.
      * apply loop_sorted. split; [exact Hs|]. right. split; [eauto|]. split; [exact D|].
        intros m Hm. injection Hm as <-. exists q; auto.
      * rewrite (Hc D). reflexivity.
    + exists None. split; [apply loop_sorted; auto|reflexivity].
Qed.

Lemma removelast_split {A} (q w : list A) : w <> [] -> removelast w = q -> exists p, w = q ++ [p].
Proof.
  intros Hw H. destruct (exists_last Hw) as (w' & p & ->). rewrite removelast_last in H. subst.
  exists p; reflexivity.
Qed.

Lemma dget_single (k k' : str) (t : dtree) : dget str_eqb k' [(k, t)] = if str_eqb k' k then Some t else None.
Proof. reflexivity. Qed.

Lemma validate_iff e docs : validate e docs = Ok tt <->
  Forall names_program docs /\ NoDup (map words docs) /\ parents_first docs /\ one_program docs /\
  forall v, In v docs -> length (words v) <= 2 -> right e docs v.
Proof.
  destruct (make_tree docs) as [M1 M2]. unfold validate.
  split.
  - intros H. apply bind_ok' in H as (f & Hf & H).
    destruct (proj1 M1 (ex_intro _ f Hf)) as (HF & HN & HP). destruct (M2 f Hf) as [Hwf Hat].
    split; [exact HF|]. split; [exact HN|]. split; [exact HP|].
    destruct f as [|[k t] [|]]; [discriminate| |discriminate].
    set (f := [(k, t)]) in *.
    assert (HK : at_ f [k] = Some (n_def t)).
    { unfold at_, f. cbn [find_def]. rewrite dget_single, str_eqb_refl. reflexivity. }
    assert (HU : forall v w, In v docs -> In w docs -> words v = words w -> v = w).
    { intros v w Hv Hw E. revert HN Hv Hw E. clear. induction docs as [|x l IH]; [intros _ []|].
      cbn [map]. intros HN. inversion HN as [|? ? Hx Hl]; subst.
      intros [->|Hv] [->|Hw] E; auto.
      - exfalso. apply Hx. rewrite E. apply in_map; exact Hw.
      - exfalso. apply Hx. rewrite <- E. apply in_map; exact Hv. }
    apply check_nodes_iff in H. rewrite Forall_forall in H.
    assert (Hkey : forall v, In v docs -> exists x q d p, words v = x :: q /\ v = VDict d /\
      vget (s "prog") d = Some (VStr p) /\ at_ f (words v) = Some d /\ x = k).
    { intros v Hv. rewrite Forall_forall in HF. pose proof (HF v Hv) as Hn.
      pose proof (words_nonempty v Hn) as Hne. destruct Hn as (d & p & -> & Ep & _).
      destruct (words (VDict d)) as [|x q] eqn:Ew; [congruence|].
      exists x, q, d, p. assert (Ha : at_ f (x :: q) = Some d) by (apply Hat; exists (VDict d); auto).
      repeat split; auto. unfold at_, f in Ha. destruct q as [|y q].
      - cbn [find_def] in Ha. rewrite dget_single in Ha. destruct (str_eqb_spec x k); [assumption|discriminate].
      - rewrite find_def_cons, dget_single in Ha by discriminate.
        destruct (str_eqb_spec x k); [assumption|discriminate]. }
    split.
    + apply Hat in HK as (v & Hv & _ & Hw & _). exists v. split; [exact Hv|]. split; [rewrite Hw; reflexivity|].
      intros v' Hv' Hl. apply HU; auto. destruct (Hkey v' Hv') as (x & q & d & p & E & _ & _ & _ & ->).
      rewrite E in *. destruct q; [congruence|discriminate].
    + intros v Hv Hl. destruct (Hkey v Hv) as (x & q & d & p & Ew & -> & Ep & Ha & ->).
      assert (Hnode : exists node, find_def (k :: q) f = Some node /\ n_def node = d /\ In node (get_all t)).
      { rewrite Ew in Ha. unfold at_ in Ha. destruct (find_def (k :: q) f) as [node|] eqn:En; [|discriminate].
        injection Ha as Ha. exists node. split; [reflexivity|]. split; [exact Ha|].
        rewrite Ew in Hl. destruct q as [|y [|z q]]; [| |cbn in Hl; lia].
        - unfold f in En. cbn [find_def] in En. rewrite dget_single, str_eqb_refl in En.
          injection En as ->. left; reflexivity.
        - unfold f in En. rewrite find_def_cons, dget_single, str_eqb_refl in En by discriminate.
          cbn [find_def] in En. right. apply in_map_iff. exists (y, node). split; [reflexivity|].
          apply dget_In in En; [exact En|exact str_eqb_spec]. }
      destruct Hnode as (node & Hfind & Hdef & Hin). destruct (H node Hin) as [C1 C2].
      rewrite Hdef in C1, C2. split; [exists d; auto|].
      assert (Hsplit : split_c SP p = k :: q) by (unfold words in Ew; rewrite Ep in Ew; exact Ew).
      rewrite <- Hsplit in Hfind.
      apply (check_repeatable_iff e f d p node C1 Ep Hfind) in C2 as [C2 C3].
      split; [exact C2|]. intros HR (w & Hw & Hwne & Hrl).
      rewrite Ew in Hrl. destruct (removelast_split _ _ Hwne Hrl) as [y Hy].
      specialize (C3 HR). apply not_true_iff_false in C3. apply C3.
      rewrite Hsplit in Hfind. apply (has_subs f (k :: q) node); [discriminate|exact Hfind|].
      destruct (Hkey w Hw) as (x & q' & d' & p' & _ & _ & _ & Ha' & _).
      exists y, d'. rewrite <- Hy. exact Ha'.
  - intros (HF & HN & HP & HO & HR). destruct (proj2 M1) as [f Hf]; [auto|].
    destruct (M2 f Hf) as [Hwf Hat]. rewrite Hf. cbn [bind].
    destruct HO as (v0 & Hv0 & Hl0 & HU0). rewrite Forall_forall in HF.
    destruct (words v0) as [|k [|]] eqn:Ew0; try discriminate.
    assert (Hone : exists t, f = [(k, t)]).
    { inversion Hwf as [? Hnd _]; subst.
      assert (Hall : forall x t, In (x, t) f -> x = k).
      { intros x t Hx. assert (Ha : at_ f [x] = Some (n_def t)).
        { unfold at_. cbn [find_def]. rewrite (In_dget str_eqb str_eqb_spec x t f Hnd Hx). reflexivity. }
        apply Hat in Ha as (v & Hv & _ & Hw & _). assert (v = v0) as ->.
        { apply HU0; [exact Hv|rewrite Hw; reflexivity]. }
        congruence. }
      assert (Hk : exists t, In (k, t) f).
      { destruct (HF v0 Hv0) as (d0 & p0 & -> & _). assert (Ha : at_ f [k] = Some d0).
        { apply Hat. exists (VDict d0). repeat split; auto. discriminate. }
        unfold at_ in Ha. cbn [find_def] in Ha. destruct (dget str_eqb k f) as [t|] eqn:E; [|discriminate].
        exists t. apply dget_In in E; [exact E|exact str_eqb_spec]. }
      destruct f as [|[x t] l]; [destruct Hk as [t []]|]. pose proof (Hall x t (or_introl eq_refl)) as ->.
      destruct l as [|[y t2] l]; [exists t; reflexivity|]. exfalso.
      pose proof (Hall y t2 (or_intror (or_introl eq_refl))) as ->. cbn [map fst] in Hnd.
      inversion Hnd as [|? ? Hni _]; subst. apply Hni. left; reflexivity. }
    destruct Hone as [t ->]. apply check_nodes_iff. apply Forall_forall. intros node Hin.
    assert (Hq : exists q, length q <= 2 /\ q <> [] /\ find_def q [(k, t)] = Some node).
    { destruct Hin as [<-|Hin].
      - exists [k]. cbn [find_def]. rewrite dget_single, str_eqb_refl. repeat split; [cbn; lia|discriminate].
      - apply in_map_iff in Hin as ([y t2] & <- & Hy). exists [k; y]. split; [cbn; lia|]. split; [discriminate|].
        rewrite find_def_cons, dget_single, str_eqb_refl by discriminate. cbn [find_def snd].
        apply In_dget; [exact str_eqb_spec| |exact Hy].
        inversion Hwf as [? _ Hs]; subst. specialize (Hs k t (or_introl eq_refl)).
        inversion Hs; assumption. }
    destruct Hq as (q & Hq1 & Hq2 & Hq3).
    assert (Ha : at_ [(k, t)] q = Some (n_def node)) by (unfold at_; rewrite Hq3; reflexivity).
    apply Hat in Ha as (v & Hv & Ev & Hw & _).
    destruct (HR v Hv) as ((d & Ed & C1) & C2 & C3); [rewrite Hw; exact Hq1|].
    assert (d = n_def node) as -> by congruence. split; [exact C1|].
    destruct (HF v Hv) as (d' & p & Ed' & Ep & _). assert (d' = n_def node) as -> by congruence.
    assert (Hsplit : split_c SP p = q).
    { rewrite <- Hw, Ev. unfold words. rewrite Ep. reflexivity. }
    rewrite <- Hsplit in Hq3.
    apply (check_repeatable_iff e _ _ p node C1 Ep Hq3). rewrite Ev in C2, C3.
    split; [exact C2|]. intros HS. apply not_true_iff_false. intros Hne. rewrite Hsplit in Hq3.
    apply (has_subs _ q node Hq2 Hq3) in Hne as (y & d & Hd). apply (C3 HS).
    apply Hat in Hd as (w & Hw1 & _ & Hw2 & _). exists w. split; [exact Hw1|].
    rewrite Hw2, removelast_last. split; [destruct q; discriminate|]. rewrite <- Ev, Hw. reflexivity.
Qed.
