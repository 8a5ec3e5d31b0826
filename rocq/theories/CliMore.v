(** * More proofs about command trees: what the constructors guarantee, navigation, visiting. *)
From Verif Require Import Base Value StrUtils Cli SpecCli StrUtilsProofs CliProofs.

Lemma Ok_inj {E B} (a b : B) : @inr E B a = inr b -> a = b.
Proof. congruence. Qed.

(** ** Constructors *)

Lemma variable_name_iff x : is_valid_variable_name x = true <-> variable_name x.
Proof.
  unfold variable_name. destruct x as [|c y]; cbn [is_valid_variable_name].
  - split; [discriminate|]. intros (c & y & E & _). discriminate.
  - rewrite andb_true_iff, !orb_true_iff, N.eqb_eq, forallb_forall. split.
    + intros [H Hy]. exists c, y. split; [reflexivity|]. split; [tauto|].
      intros d Hd. specialize (Hy d Hd). unfold is_word in Hy.
      rewrite !orb_true_iff, N.eqb_eq in Hy. tauto.
    + intros (c' & y' & E & H & Hy). injection E as <- <-. split; [tauto|].
      intros d Hd. unfold is_word. rewrite !orb_true_iff, N.eqb_eq. specialize (Hy d Hd). tauto.
Qed.

Lemma capture_iff (o : option str) :
  (match o with Some x => negb (is_valid_variable_name x) | None => false end = false) <->
  (forall x, o = Some x -> variable_name x).
Proof.
  destruct o as [x|].
  - rewrite negb_false_iff, variable_name_iff. split; [intros H y E; injection E as <-; exact H|auto].
  - split; [discriminate|reflexivity].
Qed.

Lemma otruthy_iff (o : option (list value)) : otruthy o = true <-> exists x l, o = Some (x :: l).
Proof.
  destruct o as [[|x l]|]; cbn; (split; [try discriminate; eauto|intros (a & b & E); try discriminate; reflexivity]).
Qed.

Lemma if_err {A E} (b : bool) (e : E) (x y : E + A) : 
  (forall a, x <> inr a) -> (exists a, (if b then x else y) = inr a) <-> b = false /\ exists a, y = inr a.
Proof.
  intros Hx. destruct b; split.
  - intros [a Ha]. elim (Hx a Ha).
  - intros [H _]. discriminate.
  - intros H. split; [reflexivity|exact H].
  - intros [_ H]. exact H.
Qed.

Lemma mk_option_iff o o' : mk_option o = Ok o' <-> o' = o /\ valid_option o.
Proof.
  assert (wf_opt o <-> valid_option o) as H.
  { unfold wf_opt, mk_option, valid_option, takes_argument.
    rewrite <- capture_iff.
    assert (forallb is_valid_option_string (o_strings o) = true <->
            forall x, In x (o_strings o) -> option_string x) as Hs.
    { rewrite forallb_forall. split; intros Hf x Hx; [apply valid_option_string_iff, Hf, Hx|].
      apply valid_option_string_iff, Hf, Hx. }
    assert (Cli.nonempty (o_strings o) = true <-> o_strings o <> []) as Hn.
    { destruct (o_strings o); cbn; split; congruence. }
    assert (otruthy (o_metavar o) && negb (otruthy (o_complete o)) = false <->
            forall c m, o_metavar o = Some (c :: m) -> exists x l, o_complete o = Some (x :: l)) as Hm.
    { pose proof (otruthy_iff (o_complete o)) as Hc0.
      destruct (o_metavar o) as [[|c m]|]; cbn [otruthy Cli.nonempty andb].
      - split; [intros _ c m E; discriminate|reflexivity].
      - rewrite negb_false_iff, Hc0. split; [auto|intros Hc; exact (Hc c m eq_refl)].
      - split; [intros _ c m E; discriminate|reflexivity]. }
    assert (o_optional_arg o && negb (otruthy (o_complete o)) = false <->
            (o_optional_arg o = true -> exists x l, o_complete o = Some (x :: l))) as Ho.
    { pose proof (otruthy_iff (o_complete o)) as Hc0. destruct (o_optional_arg o); cbn [andb].
      - rewrite negb_false_iff, Hc0. tauto.
      - split; [discriminate|reflexivity]. }
    assert (o_hidden o && xbool_eqb (o_repeatable o) XTrue = false <->
            ~ (o_hidden o = true /\ o_repeatable o = XTrue)) as Hh.
    { destruct (o_hidden o), (o_repeatable o); cbn; split; try reflexivity; try discriminate;
        try (intros _ [? ?]; discriminate). intros E. elim E. auto. }
    rewrite <- Hs, <- Hn, <- Hm, <- Ho, <- Hh.
    destruct (Cli.nonempty (o_strings o)); cbn [negb]; [|split; [discriminate|intros (E & _); discriminate]].
    destruct (forallb is_valid_option_string (o_strings o)); cbn [negb];
      [|split; [discriminate|intros (_ & E & _); discriminate]].
    destruct (match o_capture o with Some x => negb (is_valid_variable_name x) | None => false end);
      [split; [discriminate|intros (_ & _ & E & _); discriminate]|].
    destruct (otruthy (o_metavar o) && negb (otruthy (o_complete o)));
      [split; [discriminate|intros (_ & _ & _ & E & _); discriminate]|].
    destruct (o_optional_arg o && negb (otruthy (o_complete o)));
      [split; [discriminate|intros (_ & _ & _ & _ & E & _); discriminate]|].
    destruct (o_hidden o && xbool_eqb (o_repeatable o) XTrue);
      [split; [discriminate|intros (_ & _ & _ & _ & _ & E); discriminate]|].
    tauto. }
  split.
  - intros E. apply mk_option_same in E as [-> E]. split; [reflexivity|apply H, E].
  - intros [-> E]. apply H, E.
Qed.

Lemma mk_positional_iff n m h co ns r w ca p :
  mk_positional n m h co ns r w ca = Ok p <->
  (1 <= n)%Z /\ (forall x, ca = Some x -> variable_name x) /\
  p = MkPos n m h (match co with Some (x :: l) => x :: l | _ => [VStr (s "none")] end) ns r w ca.
Proof.
  unfold mk_positional. rewrite <- capture_iff.
  destruct (match ca with Some x => negb (is_valid_variable_name x) | None => false end).
  { split; [discriminate|intros (_ & E & _); discriminate]. }
  destruct (Z.leb_spec n 0).
  { split; [discriminate|intros (E & _); lia]. }
  split; [intros E; apply Ok_inj in E; split; [lia|auto]|intros (_ & _ & ->); reflexivity].
Qed.

Lemma one_word_iff x : contains_space x = false <-> one_word x.
Proof.
  unfold contains_space, one_word. rewrite !orb_false_iff, !memc_false. tauto.
Qed.

Lemma not_blank_iff x : is_empty_or_whitespace x = false <-> exists d, In d x /\ is_space d = false.
Proof.
  destruct (is_empty_or_whitespace x) eqn:E.
  - apply is_empty_or_whitespace_iff in E. rewrite forallb_forall in E. split; [discriminate|].
    intros (d & Hd & Hs). rewrite (E d Hd) in Hs. discriminate.
  - split; [intros _|reflexivity]. assert (forallb is_space x <> true) as F.
    { intros F. apply is_empty_or_whitespace_iff in F. congruence. }
    clear E. induction x as [|c x IH]; [elim F; reflexivity|]. cbn [forallb] in F.
    destruct (is_space c) eqn:Ec.
    + destruct IH as (d & Hd & Hs); [intros E; apply F; exact E|]. exists d. split; [right; exact Hd|exact Hs].
    + exists c. split; [left; reflexivity|exact Ec].
Qed.

Lemma mk_commandline_iff prog help aliases wraps abc abo inh c :
  mk_commandline prog help aliases wraps abc abo inh = Ok c <->
  (forall a, In a aliases -> one_word a) /\
  (forall w, wraps = Some w -> one_word w /\ exists d, In d w /\ is_space d = false) /\
  c = Cmd prog help aliases wraps abc abo inh [] [] None.
Proof.
  unfold mk_commandline.
  assert (match wraps with Some w => is_empty_or_whitespace w | None => false end = false /\
          match wraps with Some w => contains_space w | None => false end = false <->
          forall w, wraps = Some w -> one_word w /\ exists d, In d w /\ is_space d = false) as Hw.
  { destruct wraps as [w|].
    - rewrite not_blank_iff, one_word_iff. split.
      + intros [H1 H2] w' E. injection E as <-. auto.
      + intros H. destruct (H w eq_refl). auto.
    - split; [discriminate|auto]. }
  assert (existsb contains_space aliases = false <-> forall a, In a aliases -> one_word a) as Ha.
  { split.
    - intros H a Hi. apply one_word_iff. destruct (contains_space a) eqn:E; [|reflexivity].
      assert (existsb contains_space aliases = true) by (apply existsb_exists; eauto). congruence.
    - intros H. destruct (existsb contains_space aliases) eqn:E; [|reflexivity].
      apply existsb_exists in E as (a & Hi & Hc). apply H, one_word_iff in Hi. congruence. }
  rewrite <- Hw, <- Ha.
  destruct (match wraps with Some w => is_empty_or_whitespace w | None => false end);
    [split; [discriminate|intros (_ & [E _] & _); discriminate]|].
  destruct (match wraps with Some w => contains_space w | None => false end);
    [split; [discriminate|intros (_ & [_ E] & _); discriminate]|].
  destruct (existsb contains_space aliases); [split; [discriminate|intros (E & _); discriminate]|].
  split; [intros E; apply Ok_inj in E; auto|intros (_ & _ & ->); reflexivity].
Qed.

Lemma built_valid root ps c : built root -> located root ps c -> valid_command c.
Proof.
  intros Hb Hl. destruct (located_wfc root ps c (built_wfc root Hb) Hl) as [Hc _].
  destruct Hc as [c Hh Ho Hp Hn _]. unfold valid_command.
  apply mk_commandline_iff in Hh as (Ha & Hw & _). split; [exact Ha|]. split; [exact Hw|].
  rewrite Forall_forall in Ho, Hp. split; [|split; [|exact Hn]].
  - intros o Hi. apply (mk_option_iff o o). exact (Ho o Hi).
  - intros p Hi. specialize (Hp p Hi). unfold wf_pos in Hp.
    apply mk_positional_iff in Hp as (H1 & H2 & H3). split; [exact H1|]. split; [|exact H2].
    rewrite H3. cbn. destruct (p_complete p); discriminate.
Qed.

(** ** Navigation *)

Lemma located_root_of root ps c : located root ps c -> get_root_commandline ps c = root.
Proof.
  unfold get_root_commandline. intros H. assert (forall d, last (c :: ps) d = root) as E.
  { induction H as [|ps c sub H IH Hi]; intros d; [reflexivity|]. cbn [last]. exact (IH d). }
  destruct ps as [|p ps]; [exact (E c)|]. exact (E c).
Qed.

Lemma get_parents_eq root ps c b : located root ps c ->
  get_parents ps c b = rev ps ++ (if b then [c] else []).
Proof.
  intros _. unfold get_parents. rewrite parents_loop_eq, app_nil_r. destruct b; [reflexivity|].
  rewrite app_nil_r. reflexivity.
Qed.

Lemma final_options_iff root ps c o : located root ps c ->
  (In o (get_final_options ps c) <-> o_final o = true /\ exists a, In a (c :: ps) /\ In o (c_options a)).
Proof.
  intros _. unfold get_final_options. rewrite in_flat_map. split.
  - intros (a & Ha & Ho). apply filter_In in Ho as [Ho Hf]. eauto.
  - intros (Hf & a & Ha & Ho). exists a. split; [exact Ha|]. apply filter_In. auto.
Qed.

(** ** Visiting *)

Lemma visit_eq ps c : visit_commandlines ps c =
  (ps, c) :: flat_map (visit_commandlines (c :: ps)) (subs c).
Proof.
  destruct c as [a b cc d e f g h i [l|]]; [|reflexivity].
  set (c := Cmd a b cc d e f g h i (Some l)).
  change (visit_commandlines ps c) with ((ps, c) ::
    (fix go l := match l with [] => [] | x :: l' => visit_commandlines (c :: ps) x ++ go l' end) l).
  reflexivity.
Qed.

Lemma cmd_subs_ind (P : cmd -> Prop) : (forall c, (forall x, In x (subs c) -> P x) -> P c) -> forall c, P c.
Proof.
  intros H c. induction c as [a b cc d e f g h i j IH] using cmd_ind'. apply H. unfold subs. cbn.
  destruct j as [l|]; [|intros x []]. intros x Hx. specialize (IH l eq_refl).
  rewrite Forall_forall in IH. exact (IH x Hx).
Qed.

Lemma located_trans root ps c rs d : located root ps c -> located c rs d -> located root (rs ++ ps) d.
Proof.
  intros H1 H2. induction H2 as [|rs c' sub H2 IH Hi]; [exact H1|]. cbn [app]. apply located_sub; assumption.
Qed.

Lemma located_down c sub rs d : In sub (subs c) -> located sub rs d -> located c (rs ++ [c]) d.
Proof.
  intros H1 H2. apply (located_trans c [c] sub rs d); [|exact H2]. apply located_sub; [constructor|exact H1].
Qed.

Lemma located_cases root qs d : located root qs d ->
  qs = [] /\ d = root \/ exists sub rs, In sub (subs root) /\ qs = rs ++ [root] /\ located sub rs d.
Proof.
  induction 1 as [|qs c sub H IH Hi]; [auto|]. right.
  destruct IH as [[-> ->]|(sub' & rs & H1 & -> & H2)].
  - exists sub, []. split; [exact Hi|]. split; [reflexivity|constructor].
  - exists sub', (c :: rs). split; [exact H1|]. split; [reflexivity|]. constructor; assumption.
Qed.

Lemma visit_iff : forall c ps qs d, In (qs, d) (visit_commandlines ps c) <->
  exists rs, qs = rs ++ ps /\ located c rs d.
Proof.
  induction c as [c IH] using cmd_subs_ind. intros ps qs d. rewrite visit_eq. cbn [In].
  rewrite in_flat_map. split.
  - intros [E|(x & Hx & Hi)].
    + injection E as <- <-. exists []. split; [reflexivity|constructor].
    + apply (IH x Hx) in Hi as (rs & -> & Hl). exists (rs ++ [c]).
      split; [rewrite <- app_assoc; reflexivity|]. eapply located_down; eassumption.
  - intros (rs & -> & Hl). apply located_cases in Hl as [[-> ->]|(x & rs' & Hx & -> & Hl)].
    + left. reflexivity.
    + right. exists x. split; [exact Hx|]. apply (IH x Hx). exists rs'. rewrite <- app_assoc. auto.
Qed.

Lemma visit_block : forall root ps0 ps c, located root ps c ->
  exists pre post, visit_commandlines ps0 root = pre ++ visit_commandlines (ps ++ ps0) c ++ post.
Proof.
  intros root ps0 ps c H. induction H as [|ps c sub H (pre & post & IH) Hi].
  - exists [], []. rewrite app_nil_r. reflexivity.
  - rewrite IH, visit_eq. apply in_split in Hi as (l1 & l2 & ->).
    rewrite flat_map_app. cbn [flat_map].
    exists (pre ++ (ps ++ ps0, c) :: flat_map (visit_commandlines (c :: ps ++ ps0)) l1),
           (flat_map (visit_commandlines (c :: ps ++ ps0)) l2 ++ post).
    rewrite <- !app_assoc. cbn [app]. rewrite <- !app_assoc. reflexivity.
Qed.

Lemma before_parts {A} (l1 l2 l3 l4 l5 : list A) x y : In x l2 -> In y l4 ->
  before (l1 ++ l2 ++ l3 ++ l4 ++ l5) x y.
Proof.
  intros Hx Hy. apply in_split in Hx as (a & b & ->). apply in_split in Hy as (d & e & ->).
  exists (l1 ++ a), (b ++ l3 ++ d), (e ++ l5). rewrite <- !app_assoc. cbn [app].
  rewrite <- ?app_assoc. reflexivity.
Qed.

Lemma visit_parent_first root ps c sub : located root ps c -> In sub (subs c) ->
  before (visit_commandlines [] root) (ps, c) (c :: ps, sub).
Proof.
  intros H Hi. destruct (visit_block root [] ps c H) as (pre & post & ->).
  rewrite app_nil_r, visit_eq. apply in_split in Hi as (l1 & l2 & ->).
  rewrite flat_map_app. cbn [flat_map]. rewrite (visit_eq (c :: ps) sub).
  exists pre, (flat_map (visit_commandlines (c :: ps)) l1). eexists.
  cbn [app]. rewrite <- app_assoc. cbn [app]. reflexivity.
Qed.

Lemma visit_siblings root ps c l1 a l2 b l3 rs d rs' d' : located root ps c ->
  subs c = l1 ++ a :: l2 ++ b :: l3 -> located a rs d -> located b rs' d' ->
  before (visit_commandlines [] root) (rs ++ c :: ps, d) (rs' ++ c :: ps, d').
Proof.
  intros H E Ha Hb. destruct (visit_block root [] ps c H) as (pre & post & ->).
  rewrite app_nil_r, visit_eq, E, flat_map_app. cbn [flat_map]. rewrite flat_map_app. cbn [flat_map].
  replace (pre ++ ((ps, c) :: flat_map (visit_commandlines (c :: ps)) l1 ++ visit_commandlines (c :: ps) a ++
      flat_map (visit_commandlines (c :: ps)) l2 ++ visit_commandlines (c :: ps) b ++
      flat_map (visit_commandlines (c :: ps)) l3) ++ post) with
    ((pre ++ (ps, c) :: flat_map (visit_commandlines (c :: ps)) l1) ++ visit_commandlines (c :: ps) a ++
      flat_map (visit_commandlines (c :: ps)) l2 ++ visit_commandlines (c :: ps) b ++
      (flat_map (visit_commandlines (c :: ps)) l3 ++ post)).
  2:{ rewrite <- !app_assoc. cbn [app]. rewrite <- !app_assoc. reflexivity. }
  apply before_parts; apply visit_iff; eauto.
Qed.

Lemma visit_nodup : forall c, wfc c -> forall ps, NoDup (visit_commandlines ps c).
Proof.
  induction c as [c IH] using cmd_subs_ind. intros Hw ps. destruct Hw as [c _ _ _ Hn Hs].
  rewrite visit_eq. constructor.
  - rewrite in_flat_map. intros (x & Hx & Hi). apply visit_iff in Hi as (rs & E & _).
    apply (f_equal (@length cmd)) in E. rewrite app_length in E. cbn in E. lia.
  - revert Hn Hs IH. generalize (subs c). induction l as [|x l IHl]; intros Hn Hs IH; [constructor|].
    cbn [map] in Hn. apply NoDup_cons_iff in Hn as [Hx Hn]. cbn [flat_map].
    assert (forall A (u v : list A), NoDup u -> NoDup v -> (forall z, In z u -> In z v -> False) -> NoDup (u ++ v)) as Hnd.
    { clear. induction u as [|z u IH]; intros v Hu Hv Hd; [exact Hv|]. cbn [app].
      apply NoDup_cons_iff in Hu as [Hz Hu]. constructor.
      - intros Hi. apply in_app_or in Hi as [Hi|Hi]; [tauto|]. apply (Hd z); [left; reflexivity|exact Hi].
      - apply IH; [exact Hu|exact Hv|]. intros w Hw1 Hw2. apply (Hd w); [right; exact Hw1|exact Hw2]. }
    apply Hnd.
    + apply IH; [left; reflexivity|apply Hs; left; reflexivity].
    + apply IHl; [exact Hn|intros; apply Hs; right; assumption|intros; apply IH; [right|]; assumption].
    + intros [qs d] H1 H2. apply visit_iff in H1 as (rs & E1 & L1).
      apply in_flat_map in H2 as (y & Hy & H2). apply visit_iff in H2 as (rs2 & E2 & L2).
      rewrite E1 in E2. apply app_inv_tail in E2. subst rs2.
      assert (x = y).
      { rewrite <- (located_root_of _ _ _ L1). apply located_root_of, L2. }
      subst y. apply Hx. apply in_map, Hy.
Qed.
