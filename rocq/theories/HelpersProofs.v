(** * Proofs about the helper functions. *)
From Coq Require Import Relations ZifyBool.
From Verif Require Import Base Dict PyStr Value StrUtils Preproc Shell Cli Helpers SpecHelpers.
Open Scope list_scope.

Definition keys {V} (d : list (str * V)) := map fst d.
Definition has (u : list (str * list str)) (n d : str) : Prop :=
  exists l, dget str_eqb n u = Some l /\ In d l.

(** ** use_function *)
Lemma add_used_keys u name ds n : In n (keys (add_used u name ds)) <-> n = name \/ In n (keys u).
Proof.
  unfold add_used, keys. destruct (dget str_eqb name u); apply (dset_In_keys _ str_eqb_spec).
Qed.
Lemma add_used_NoDup u name ds : NoDup (keys u) -> NoDup (keys (add_used u name ds)).
Proof.
  unfold add_used, keys. intros H.
  destruct (dget str_eqb name u); apply (dset_NoDup _ str_eqb_spec); exact H.
Qed.
Lemma add_used_has u name ds n d :
  has (add_used u name ds) n d <-> has u n d \/ (n = name /\ In d ds).
Proof.
  unfold add_used, has.
  destruct (str_eq_dec name n) as [<- | Hn].
  - destruct (dget str_eqb name u) as [old |] eqn:E;
      rewrite (dget_dset_same _ str_eqb_spec).
    + split.
      * intros (l & Hl & Hd). injection Hl as <-. apply in_app_or in Hd. destruct Hd as [Hd | Hd].
        -- left. exists old. now split.
        -- right. now split.
      * intros [(l & Hl & Hd) | [_ Hd]].
        -- injection Hl as <-. exists (old ++ ds). split; [reflexivity | apply in_or_app; now left].
        -- exists (old ++ ds). split; [reflexivity | apply in_or_app; now right].
    + split.
      * intros (l & Hl & Hd). injection Hl as <-. right. now split.
      * intros [(l & Hl & Hd) | [_ Hd]]; [discriminate Hl |]. now exists ds.
  - assert (H : forall v, dget str_eqb n (dset str_eqb name v u) = dget str_eqb n u)
      by (intros v; apply (dget_dset_other _ str_eqb_spec); exact Hn).
    destruct (dget str_eqb name u); rewrite H; split.
    + intros H1. now left.
    + intros [H1 | [H1 _]]; [exact H1 | congruence].
    + intros H1. now left.
    + intros [H1 | [H1 _]]; [exact H1 | congruence].
Qed.

Definition step_ok functions (u u' : list (str * list str)) (names : list str)
    (extra : str -> str -> Prop) : Prop :=
  (NoDup (keys u) -> NoDup (keys u')) /\
  (forall n, In n (keys u') <-> In n (keys u) \/ exists m, In m names /\ needs functions m n) /\
  (forall n d, has u' n d <-> has u n d \/ extra n d).

Lemma use_loop_ok functions fuel : forall u name ds u',
  use_loop fuel functions u name ds = Ok u' ->
  step_ok functions u u' [name] (fun n d => n = name /\ In d ds).
Proof.
  induction fuel as [| fuel IH]; intros u name ds u' H; cbn [use_loop] in H;
    destruct (dget str_eqb name functions) as [f |] eqn:Ef; try discriminate.
  assert (Hf : forall deps u0 u1,
    fold_res (fun u d => use_loop fuel functions u d []) deps u0 = Ok u1 ->
    step_ok functions u0 u1 deps (fun _ _ => False)).
  { clear -IH. induction deps as [| d deps IHd]; intros u0 u1 H; cbn [fold_res] in H.
    - injection H as <-. split; [auto | split].
      + intros n. split; [auto | intros [H | (m & [] & _)]; exact H].
      + intros n d. split; [auto | intros [H | []]; exact H].
    - unfold bind in H. destruct (use_loop fuel functions u0 d []) as [e | u2] eqn:E; [discriminate |].
      apply IH in E. apply IHd in H. destruct E as (A1 & A2 & A3), H as (B1 & B2 & B3).
      split; [auto | split].
      + intros n. rewrite B2, A2. split.
        * intros [[H | (m & [<- | []] & Hm)] | (m & Hi & Hm)].
          -- now left.
          -- right. exists d. split; [now left | exact Hm].
          -- right. exists m. split; [now right | exact Hm].
        * intros [H | (m & [<- | Hi] & Hm)].
          -- left. now left.
          -- left. right. exists d. split; [now left | exact Hm].
          -- right. exists m. now split.
      + intros n d0. rewrite B3, A3. split; [intros [[H | [_ []]] | []]; now left | intros [H | []]].
        left. now left. }
  apply Hf in H. destruct H as (H1 & H2 & H3). split; [| split].
  - intros Hn. apply H1, add_used_NoDup, Hn.
  - intros n. rewrite H2, add_used_keys. split.
    + intros [[-> | Hn] | (m & Hi & Hm)].
      * right. exists name. split; [now left | apply rt_refl].
      * now left.
      * right. exists name. split; [now left |]. eapply rt_trans; [apply rt_step | exact Hm].
        exists f. now split.
    + intros [Hn | (m & [<- | []] & Hm)]; [left; now right |].
      apply clos_rt_rt1n in Hm. destruct Hm as [| y z Hs Hr]; [left; now left |].
      destruct Hs as (f2 & E2 & Hi). rewrite Ef in E2. injection E2 as <-.
      right. exists y. split; [exact Hi | now apply clos_rt1n_rt].
  - intros n d. rewrite H3, add_used_has. split; [intros [H | []]; exact H | intros H; now left].
Qed.

Lemma request_all_ok fuel requests : forall h h',
  request_all fuel h requests = Ok h' ->
  h_functions h' = h_functions h /\ h_prefix h' = h_prefix h /\ h_class h' = h_class h /\
  h_dynamic h' = h_dynamic h /\ h_defines h' = h_defines h /\
  h_keep_comments h' = h_keep_comments h /\
  step_ok (h_functions h) (h_used h) (h_used h') (map fst requests)
    (fun n d => exists ds, In (n, ds) requests /\ In d ds).
Proof.
  induction requests as [| [name ds] r IH]; intros h h' H; cbn [request_all] in H.
  - injection H as <-. repeat (split; [reflexivity |]). split; [auto | split].
    + intros n. split; [auto | intros [H | (m & [] & _)]; exact H].
    + intros n d. split; [auto | intros [H | (l & [] & _)]; exact H].
  - unfold use_function, bind in H.
    destruct (use_loop fuel (h_functions h) (h_used h) name ds) as [e | u] eqn:E; [discriminate |].
    apply use_loop_ok in E. apply IH in H.
    destruct H as (F1 & F2 & F3 & F4 & F5 & F6 & (B1 & B2 & B3)), E as (A1 & A2 & A3).
    cbn in F1, F2, F3, F4, F5, F6, B1, B2, B3.
    repeat (split; [assumption |]). split; [auto | split].
    + intros n. rewrite B2, A2. cbn [map fst]. split.
      * intros [[H | (m & [<- | []] & Hm)] | (m & Hi & Hm)].
        -- now left.
        -- right. exists name. split; [now left | exact Hm].
        -- right. exists m. split; [now right | exact Hm].
      * intros [H | (m & [<- | Hi] & Hm)].
        -- left. now left.
        -- left. right. exists name. split; [now left | exact Hm].
        -- right. exists m. now split.
    + intros n d. rewrite B3, A3. split.
      * intros [[H | [-> Hd]] | (l & Hi & Hd)].
        -- now left.
        -- right. exists ds. split; [now left | exact Hd].
        -- right. exists l. split; [now right | exact Hd].
      * intros [H | (l & [He | Hi] & Hd)].
        -- left. now left.
        -- injection He as <- <-. left. right. now split.
        -- right. exists l. now split.
Qed.

(** *** When requests succeed *)
Lemma use_loop_total functions fuel : forall visited name u ds,
  NoDup visited -> (forall v, In v visited -> registered functions v) ->
  (forall v, In v visited -> clos_trans str (depends functions) v name) ->
  (forall n, needs functions name n -> registered functions n /\ ~ cyclic functions n) ->
  List.length functions <= List.length visited + fuel ->
  exists u', use_loop fuel functions u name ds = Ok u'.
Proof.
  induction fuel as [| fuel IH]; intros visited name u ds Hn Hv Hp Hr Hl; cbn [use_loop];
    destruct (Hr name (rt_refl _ _ name)) as [Hreg Hc].
  - exfalso. assert (~ In name visited) by (intros Hi; apply Hc, Hp, Hi).
    assert (Hlen : List.length (name :: visited) <= List.length (map fst functions)).
    { apply NoDup_incl_length; [constructor; assumption |].
      intros x [<- | Hx]; [exact Hreg | now apply Hv]. }
    rewrite map_length in Hlen. cbn [List.length] in Hlen. lia.
  - destruct (dget str_eqb name functions) as [f |] eqn:Ef;
      [| apply (dget_None _ str_eqb_spec) in Ef; contradiction].
    assert (Hd : forall d, In d (f_deps f) -> depends functions name d) by (intros d Hd; now exists f).
    generalize (add_used u name ds). revert Hd. induction (f_deps f) as [| d deps IHd]; intros Hd u0.
    + now exists u0.
    + cbn [fold_res]. destruct (IH (name :: visited) d u0 []) as (u1 & E1).
      * constructor; [| exact Hn]. intros Hi. apply Hc, Hp, Hi.
      * intros v [<- | Hi]; [exact Hreg | now apply Hv].
      * intros v [<- | Hi]; [apply t_step, Hd; now left |].
        eapply t_trans; [apply Hp, Hi | apply t_step, Hd; now left].
      * intros n Hnn. apply Hr. eapply rt_trans; [apply rt_step, Hd; now left | exact Hnn].
      * cbn [List.length]. lia.
      * unfold bind. rewrite E1. apply IHd. intros d' Hi. apply Hd. now right.
Qed.

Inductive chain functions : nat -> str -> Prop :=
| chain_0 a : chain functions 0 a
| chain_S n a b : depends functions a b -> chain functions n b -> chain functions (S n) a.
Lemma use_loop_chain functions fuel : forall u name ds u',
  use_loop fuel functions u name ds = Ok u' -> ~ chain functions fuel name.
Proof.
  induction fuel as [| fuel IH]; intros u name ds u' H Hc; cbn [use_loop] in H;
    destruct (dget str_eqb name functions) as [f |] eqn:Ef; try discriminate.
  inversion Hc as [| n a b Hd Hb E1 E2]; subst. destruct Hd as (f2 & E2 & Hi).
  rewrite Ef in E2. injection E2 as <-.
  revert H. generalize (add_used u name ds). induction (f_deps f) as [| d deps IHd]; [destruct Hi |].
  intros u0 H. cbn [fold_res] in H. unfold bind in H.
  destruct (use_loop fuel functions u0 d []) as [e | u1] eqn:E; [discriminate |].
  destruct Hi as [<- | Hi].
  - exact (IH _ _ _ _ E Hb).
  - exact (IHd Hi u1 H).
Qed.
Lemma chain_trans functions a b : clos_trans_1n str (depends functions) a b ->
  forall n, chain functions n b -> chain functions n a.
Proof.
  assert (Hdown : forall n x, chain functions (S n) x -> chain functions n x).
  { induction n as [| n IH]; intros x H; [constructor |].
    inversion H; subst. econstructor; [eassumption | now apply IH]. }
  induction 1 as [a b Hs | a b c Hs Hr IH]; intros n Hn.
  - apply Hdown. now apply (chain_S _ n a b).
  - apply Hdown. apply (chain_S _ n a b); [exact Hs | now apply IH].
Qed.
Lemma cyclic_chain functions a : cyclic functions a -> forall n, chain functions n a.
Proof.
  intros Hc n. induction n as [| n IH]; [constructor |].
  apply clos_trans_t1n in Hc. inversion Hc as [b Hs E | b c Hs Hr E]; subst.
  - now apply (chain_S _ n a a).
  - apply (chain_S _ n a b); [exact Hs |]. apply (chain_trans functions b a Hr), IH.
Qed.
Lemma needs_chain functions a b n : needs functions a b -> chain functions n b -> chain functions n a.
Proof.
  intros H Hb. apply clos_rt_rt1n in H. induction H as [| x y z Hs Hr IH]; [exact Hb |].
  apply (chain_trans functions x y); [now apply t1n_step | now apply IH].
Qed.
Lemma used_registered functions fuel : forall u name ds u',
  use_loop fuel functions u name ds = Ok u' -> forall n, needs functions name n -> registered functions n.
Proof.
  induction fuel as [| fuel IH]; intros u name ds u' H n Hn; cbn [use_loop] in H;
    destruct (dget str_eqb name functions) as [f |] eqn:Ef; try discriminate.
  apply clos_rt_rt1n in Hn. destruct Hn as [| y z Hs Hr].
  - unfold registered. apply (dget_In _ str_eqb_spec) in Ef.
    change name with (fst (name, f)). now apply in_map.
  - destruct Hs as (f2 & E2 & Hi). rewrite Ef in E2. injection E2 as <-.
    revert H. generalize (add_used u name ds). induction (f_deps f) as [| d deps IHd]; [destruct Hi |].
    intros u0 H. cbn [fold_res] in H. unfold bind in H.
    destruct (use_loop fuel functions u0 d []) as [e | u1] eqn:E; [discriminate |].
    destruct Hi as [<- | Hi].
    + apply (IH _ _ _ _ E). now apply clos_rt1n_rt.
    + exact (IHd Hi u1 H).
Qed.

Lemma request_all_total fuel requests : forall h,
  List.length (h_functions h) <= fuel ->
  (forall r ds n, In (r, ds) requests -> needs (h_functions h) r n ->
     registered (h_functions h) n /\ ~ cyclic (h_functions h) n) ->
  exists h', request_all fuel h requests = Ok h'.
Proof.
  induction requests as [| [name ds] r IH]; intros h Hf Hr; cbn [request_all]; [now exists h |].
  destruct (use_loop_total (h_functions h) fuel [] name (h_used h) ds) as (u & E).
  - constructor.
  - intros v [].
  - intros v [].
  - intros n Hn. apply (Hr name ds n); [now left | exact Hn].
  - cbn. exact Hf.
  - unfold use_function, bind. rewrite E. apply IH; [exact Hf |].
    intros r' ds' n Hi. cbn. apply (Hr r' ds' n). now right.
Qed.
Lemma request_all_only fuel requests : forall h h',
  request_all fuel h requests = Ok h' ->
  forall r ds n, In (r, ds) requests -> needs (h_functions h) r n ->
    registered (h_functions h) n /\ ~ cyclic (h_functions h) n.
Proof.
  induction requests as [| [name ds] r IH]; intros h h' H r' ds' n Hi Hn; [destruct Hi |].
  cbn [request_all] in H. unfold use_function, bind in H.
  destruct (use_loop fuel (h_functions h) (h_used h) name ds) as [e | u] eqn:E; [discriminate |].
  destruct Hi as [He | Hi].
  - injection He as <- <-. split.
    + apply (used_registered _ _ _ _ _ _ E n Hn).
    + intros Hc. apply (use_loop_chain _ _ _ _ _ _ E).
      apply (needs_chain _ _ n); [exact Hn | now apply cyclic_chain].
  - apply IH with (r := r') (ds := ds') (n := n) in H; assumption.
Qed.

(** ** Whole words *)
Section Words.
Context (f : str -> str).
Definition flush (cur : str) : str := match cur with [] => [] | _ => f cur end.
Fixpoint map_words (cur x : str) : str :=
  match x with
  | [] => flush cur
  | c :: x' => if is_word c then map_words (cur ++ [c]) x' else flush cur ++ c :: map_words [] x'
  end.
Definition starts_plain (x : str) : Prop := forall c x', x = c :: x' -> is_word c = false.
Lemma map_words_word w : forall cur x, forallb is_word w = true -> map_words cur (w ++ x) = map_words (cur ++ w) x.
Proof.
  induction w as [| c w IH]; intros cur x H; [now rewrite app_nil_r |].
  cbn [forallb] in H. apply andb_prop in H as [Hc Hw]. cbn [app map_words]. rewrite Hc, IH by exact Hw.
  now rewrite <- app_assoc.
Qed.
Lemma map_words_flush cur x : starts_plain x -> map_words cur x = flush cur ++ map_words [] x.
Proof.
  intros H. destruct x as [| c x]; cbn [map_words flush]; [now rewrite app_nil_r |].
  rewrite (H c x eq_refl). reflexivity.
Qed.
Lemma in_words_map x y : in_words f x y -> y = map_words [] x.
Proof.
  induction 1 as [| c x y Hc Hx IH | w x y Hw Hww Hp Hx IH].
  - reflexivity.
  - cbn [map_words flush app]. rewrite Hc. now rewrite <- IH.
  - rewrite map_words_word by exact Hww. cbn [app]. rewrite map_words_flush by exact Hp.
    rewrite <- IH. destruct w; [contradiction | reflexivity].
Qed.
Lemma split_word x : exists w r, x = w ++ r /\ forallb is_word w = true /\ starts_plain r.
Proof.
  induction x as [| c x (w & r & -> & Hw & Hr)].
  - exists [], []. split; [reflexivity | split; [reflexivity | intros c x' H; discriminate]].
  - destruct (is_word c) eqn:Hc.
    + exists (c :: w), r. split; [reflexivity | split; [cbn; now rewrite Hc | exact Hr]].
    + exists [], (c :: w ++ r). split; [reflexivity | split; [reflexivity |]].
      intros d x' H. injection H as <- _. exact Hc.
Qed.
Lemma word_ind (P : str -> Prop) :
  P [] -> (forall c x, is_word c = false -> P x -> P (c :: x)) ->
  (forall w x, w <> [] -> forallb is_word w = true -> starts_plain x -> P x -> P (w ++ x)) ->
  forall x, P x.
Proof.
  intros H0 H1 H2 x. remember (List.length x) as n eqn:En. revert x En.
  induction n as [n IH] using lt_wf_ind. intros x En.
  destruct x as [| c x]; [exact H0 |].
  destruct (split_word (c :: x)) as (w & r & E & Hw & Hr). destruct w as [| d w].
  - cbn [app] in E. apply H1; [exact (Hr c x (eq_sym E)) |]. apply (IH (List.length x)); [| reflexivity].
    subst n. cbn. lia.
  - rewrite E. apply H2; [discriminate | exact Hw | exact Hr |].
    apply (IH (List.length r)); [| reflexivity]. subst n. rewrite E, app_length. cbn. lia.
Qed.
Lemma map_words_in x : in_words f x (map_words [] x).
Proof.
  induction x as [| c x Hc IH | w x Hw Hww Hp IH] using word_ind.
  - constructor.
  - cbn [map_words flush app]. rewrite Hc. now constructor.
  - rewrite map_words_word by exact Hww. cbn [app]. rewrite map_words_flush by exact Hp.
    replace (flush w) with (f w) by (destruct w; [contradiction | reflexivity]).
    now constructor.
Qed.
End Words.

Lemma starts_with_app p x : starts_with p (p ++ x) = true.
Proof. induction p as [| c p IH]; cbn [starts_with app]; [reflexivity |]. now rewrite N.eqb_refl, IH. Qed.
Lemma starts_with_iff p x : starts_with p x = true <-> exists r, x = p ++ r.
Proof.
  revert x. induction p as [| c p IH]; intros x; cbn [starts_with].
  - split; [intros _; now exists x | reflexivity].
  - destruct x as [| d x].
    + split; [discriminate | intros (r & H); discriminate H].
    + rewrite andb_true_iff, IH, N.eqb_eq. split.
      * intros [<- (r & ->)]. now exists r.
      * intros (r & H). injection H as -> ->. split; [reflexivity | now exists r].
Qed.

Lemma loop_in_word sch rep w : forall x, forallb is_word w = true -> starts_plain x ->
  replace_name_loop sch rep true 0 (w ++ x) =
  w ++ replace_name_loop sch rep true 0 x.
Proof.
  induction w as [| c w IH]; intros x Hw Hx; [reflexivity |].
  cbn [forallb] in Hw. apply andb_prop in Hw as [Hc Hw].
  cbn [app replace_name_loop].
  replace (at_boundary true (c :: w ++ x)) with false by (unfold at_boundary; now rewrite Hc).
  cbn [andb]. rewrite Hc. f_equal. now rewrite IH.
Qed.
Lemma loop_skip sch rep w : forall prev x, forallb is_word w = true ->
  replace_name_loop sch rep prev (List.length w) (w ++ x) =
  replace_name_loop sch rep (match w with [] => prev | _ => true end) 0 x.
Proof.
  induction w as [| c w IH]; intros prev x Hw; [reflexivity |].
  cbn [forallb] in Hw. apply andb_prop in Hw as [Hc Hw].
  cbn [app List.length replace_name_loop]. rewrite Hc, IH by exact Hw. now destruct w.
Qed.
Lemma loop_after sch rep x : sch <> [] -> forallb is_word sch = true -> starts_plain x ->
  replace_name_loop sch rep true 0 x = replace_name_loop sch rep false 0 x.
Proof.
  intros Hs Hw Hx. destruct x as [| c x]; [reflexivity |].
  cbn [replace_name_loop]. assert (Hc := Hx c x eq_refl).
  destruct sch as [| d sch]; [contradiction |].
  cbn [forallb] in Hw. apply andb_prop in Hw as [Hd _].
  cbn [starts_with]. replace (N.eqb d c) with false; [now rewrite !andb_false_r |].
  symmetry. apply N.eqb_neq. intros ->. congruence.
Qed.
Lemma last_word w : w <> [] -> forallb is_word w = true -> is_word (last w 0%N) = true.
Proof.
  intros Hn H. rewrite forallb_forall in H. apply H.
  rewrite (app_removelast_last 0%N Hn) at 2. apply in_or_app. right. now left.
Qed.

Definition swap1 (a b : str) : str -> str := fun w => if str_eq_dec w a then b else w.
Lemma replace_function_name_words sch rep x :
  sch <> [] -> forallb is_word sch = true ->
  replace_function_name sch rep x = map_words (swap1 sch rep) [] x.
Proof.
  intros Hs Hw. unfold replace_function_name.
  induction x as [| c x Hc IH | w x Hwn Hww Hx IH] using word_ind.
  - reflexivity.
  - cbn [replace_name_loop map_words flush app].
    replace (at_boundary false (c :: x)) with false by (unfold at_boundary; now rewrite Hc).
    cbn [andb]. now rewrite Hc, IH.
  - rewrite map_words_word by exact Hww. cbn [app]. rewrite map_words_flush by exact Hx.
    rewrite <- IH, <- (loop_after sch rep x Hs Hw Hx).
    destruct w as [| c w]; [contradiction |].
    pose proof Hww as Hww'. cbn [forallb] in Hww'. apply andb_prop in Hww' as [Hc Hw'].
    cbn [flush]. unfold swap1. destruct (str_eq_dec (c :: w) sch) as [<- | Hne].
    + change ((c :: w) ++ x) with (c :: (w ++ x)). cbn [replace_name_loop].
      replace (at_boundary false (c :: w ++ x)) with true by (unfold at_boundary; now rewrite Hc).
      replace (starts_with (c :: w) (c :: w ++ x)) with true
        by (symmetry; apply (starts_with_app (c :: w) x)).
      replace (skipn (List.length (c :: w)) (c :: w ++ x)) with x
        by (change (c :: w ++ x) with ((c :: w) ++ x); symmetry;
            now rewrite skipn_app, skipn_all, Nat.sub_diag).
      rewrite (last_word (c :: w)) by (try discriminate; exact Hww).
      replace (at_boundary true x) with true.
      2: { unfold at_boundary. destruct x as [| d x]; [reflexivity |]. now rewrite (Hx d x eq_refl). }
      cbn [andb]. f_equal. cbn [List.length]. rewrite Nat.sub_succ, Nat.sub_0_r.
      rewrite loop_skip by exact Hw'. rewrite Hc. now destruct w.
    + change ((c :: w) ++ x) with (c :: (w ++ x)). cbn [replace_name_loop].
      rewrite (last_word sch Hs Hw).
      destruct (starts_with sch (c :: w ++ x)) eqn:Est.
      * replace (at_boundary true (skipn (List.length sch) (c :: w ++ x))) with false.
        -- rewrite andb_false_r, Hc, loop_in_word by assumption. now destruct w.
        -- apply starts_with_iff in Est. destruct Est as (r & Er). rewrite Er.
           rewrite skipn_app, skipn_all, Nat.sub_diag. cbn [skipn app].
           symmetry. unfold at_boundary. change (c :: w ++ x) with ((c :: w) ++ x) in Er.
           apply app_eq_app in Er. destruct Er as (l & [[E1 E2] | [E1 E2]]).
           ++ destruct l as [| d l]; [rewrite app_nil_r in E1; congruence |].
              subst r. cbn [app]. rewrite E1 in Hww. rewrite forallb_app in Hww.
              apply andb_prop in Hww as [_ Hd]. cbn in Hd. apply andb_prop in Hd as [Hd _].
              now rewrite Hd.
           ++ destruct l as [| d l]; [rewrite app_nil_r in E1; congruence |].
              exfalso. rewrite E1, forallb_app in Hw. apply andb_prop in Hw as [_ Hd].
              cbn in Hd. apply andb_prop in Hd as [Hd _].
              rewrite (Hx d (l ++ r) E2) in Hd. discriminate.
      * rewrite andb_false_r. cbn [andb]. rewrite Hc, loop_in_word by assumption. now destruct w.
Qed.

(** *** Replacing several names one after the other *)
Lemma map_words_ext f g : (forall w, f w = g w) -> forall x cur, map_words f cur x = map_words g cur x.
Proof.
  intros H. induction x as [| c x IH]; intros cur; cbn [map_words]; unfold flush.
  - now destruct cur.
  - rewrite !IH. destruct cur; [reflexivity |]. now rewrite H.
Qed.
Lemma map_words_id x : forall cur, map_words (fun w => w) cur x = cur ++ x.
Proof.
  induction x as [| c x IH]; intros cur; cbn [map_words].
  - rewrite app_nil_r. now destruct cur.
  - destruct (is_word c); rewrite IH; [now rewrite <- app_assoc |].
    unfold flush. now destruct cur.
Qed.
(** what [f] does to a text none of whose words [f] changes *)
Lemma map_words_fixed f x : (forall w, word_of w x -> f w = w) -> map_words f [] x = x.
Proof.
  induction x as [| c x Hc IH | w x Hw Hww Hp IH] using word_ind; intros H.
  - reflexivity.
  - cbn [map_words flush app]. rewrite Hc, IH; [reflexivity |].
    intros w (a & b & -> & H1 & H2 & H3 & H4). apply H. exists (c :: a), b.
    split; [reflexivity | split; [exact H1 | split; [exact H2 | split; [| exact H4]]]].
    intros a' d E. destruct a as [| e a].
    + destruct a' as [| e' a']; [injection E as <-; exact Hc |].
      exfalso. destruct a'; discriminate E.
    + destruct a' as [| e' a']; [discriminate E |]. injection E as _ E. exact (H3 a' d E).
  - rewrite map_words_word by exact Hww. cbn [app]. rewrite map_words_flush by exact Hp.
    rewrite IH.
    + replace (flush f w) with (f w) by (destruct w; [contradiction | reflexivity]).
      rewrite H; [reflexivity |]. exists [], x. split; [reflexivity |].
      split; [exact Hw | split; [exact Hww | split]].
      * intros a' c E. destruct a'; discriminate.
      * intros c b' E. exact (Hp c b' E).
    + intros v (a & b & -> & H1 & H2 & H3 & H4). apply H. exists (w ++ a), b.
      split; [now rewrite <- app_assoc | split; [exact H1 | split; [exact H2 | split; [| exact H4]]]].
      intros a' d E. destruct (list_eq_dec N.eq_dec a []) as [-> | Hna].
      * exfalso. destruct v as [| e v]; [contradiction |].
        cbn in H2. apply andb_prop in H2 as [He _]. rewrite (Hp e (v ++ b) eq_refl) in He. discriminate.
      * destruct (exists_last Hna) as (a2 & e & ->). rewrite app_assoc in E.
        apply app_inj_tail in E as [_ <-]. exact (H3 a2 e eq_refl).
Qed.
(** concatenation where no word crosses the border *)
Lemma map_words_app f x : forall cur y, starts_plain y -> map_words f cur (x ++ y) = map_words f cur x ++ map_words f [] y.
Proof.
  induction x as [| c x IH]; intros cur y Hy; cbn [app map_words].
  - now apply map_words_flush.
  - destruct (is_word c); rewrite IH by exact Hy; [reflexivity |]. now rewrite <- app_assoc.
Qed.
Lemma map_words_plain f y cur x : starts_plain x -> map_words f cur (y ++ x) = map_words f cur y ++ map_words f [] x.
Proof. apply map_words_app. Qed.

(** composition, when the inserted texts are not changed any more *)
Lemma map_words_starts f x : starts_plain x -> starts_plain (map_words f [] x).
Proof.
  intros H c x' E. destruct x as [| d x]; [discriminate E |].
  cbn [map_words] in E. rewrite (H d x eq_refl) in E. cbn [flush app] in E. injection E as <- _.
  exact (H d x eq_refl).
Qed.
Lemma map_words_compose f g x :
  (forall w, f w <> w -> map_words g [] (f w) = f w) ->
  map_words g [] (map_words f [] x) =
  map_words (fun w => if str_eq_dec (f w) w then g w else f w) [] x.
Proof.
  intros H. induction x as [| c x Hc IH | w x Hw Hww Hp IH] using word_ind.
  - reflexivity.
  - cbn [map_words flush app]. rewrite Hc. cbn [map_words flush app]. now rewrite Hc, IH.
  - rewrite !map_words_word by exact Hww. cbn [app]. rewrite !(map_words_flush _ w) by exact Hp.
    rewrite map_words_app by now apply map_words_starts. rewrite IH. f_equal.
    assert (E : forall h, flush h w = h w) by (intros h; destruct w; [contradiction | reflexivity]).
    rewrite !E. destruct (str_eq_dec (f w) w) as [-> | Hn].
    + rewrite <- (app_nil_r w) at 1. rewrite map_words_word by exact Hww. cbn [app map_words]. now rewrite E.
    + now apply H.
Qed.

Definition swaps (real : str -> str) (deps : list str) : str -> str :=
  fun w => if in_dec str_eq_dec w deps then real w else w.
Lemma rename_all real deps x :
  (forall d, In d deps -> d <> [] /\ forallb is_word d = true) ->
  (forall d d', In d deps -> In d' deps -> ~ word_of d (real d')) ->
  fold_left (fun code dep => replace_function_name dep (real dep) code) deps x
  = map_words (swaps real deps) [] x.
Proof.
  intros Hw Hr. revert x.
  assert (G : forall todo done_, (forall d, In d (done_ ++ todo) -> In d deps) -> forall x,
    fold_left (fun code dep => replace_function_name dep (real dep) code) todo
      (map_words (swaps real done_) [] x) = map_words (swaps real (done_ ++ todo)) [] x).
  { induction todo as [| d todo IH]; intros done_ Hi x.
    - now rewrite app_nil_r.
    - cbn [fold_left]. assert (Hd : In d deps) by (apply Hi, in_or_app; right; now left).
      destruct (Hw d Hd) as [Hd1 Hd2]. rewrite replace_function_name_words by assumption.
      rewrite map_words_compose.
      + rewrite (map_words_ext _ (swaps real (done_ ++ [d]))).
        * replace (done_ ++ d :: todo) with ((done_ ++ [d]) ++ todo) by now rewrite <- app_assoc.
          apply IH. intros d' Hd'. apply Hi. now rewrite <- app_assoc in Hd'.
        * intros w. unfold swaps, swap1.
          destruct (in_dec str_eq_dec w done_) as [Hin | Hout].
          -- assert (Hin' : In w (done_ ++ [d])) by (apply in_or_app; now left).
             destruct (in_dec str_eq_dec w (done_ ++ [d])) as [_ | C]; [| contradiction].
             destruct (str_eq_dec (real w) w) as [E | _]; [| reflexivity].
             destruct (str_eq_dec w d) as [-> | _]; [reflexivity | now rewrite E].
          -- destruct (str_eq_dec w w) as [_ | C]; [| congruence].
             destruct (str_eq_dec w d) as [-> | Hn].
             ++ destruct (in_dec str_eq_dec d (done_ ++ [d])) as [_ | C]; [reflexivity |].
                exfalso. apply C, in_or_app. right. now left.
             ++ destruct (in_dec str_eq_dec w (done_ ++ [d])) as [C | _]; [| reflexivity].
                apply in_app_or in C. destruct C as [C | [C | []]]; congruence.
      + intros w Hne. apply map_words_fixed. intros v Hv. unfold swap1.
        destruct (str_eq_dec v d) as [-> | _]; [| reflexivity]. exfalso.
        unfold swaps in Hne, Hv. destruct (in_dec str_eq_dec w done_) as [Hin | _]; [| congruence].
        apply (Hr d w Hd); [apply Hi, in_or_app; now left | exact Hv]. }
  intros x. rewrite <- (G deps []); [| intros d Hd; exact Hd].
  rewrite (map_words_ext _ (fun w => w)), map_words_id; [reflexivity |].
  intros w. unfold swaps. now destruct (in_dec str_eq_dec w []).
Qed.
