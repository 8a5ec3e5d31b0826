(** * Proofs about command trees *)
From Verif Require Import Base Dict Algo AlgoProofs Value StrUtils StrUtilsProofs Abbrev AbbrevProofs
  Cli SpecCli.
From Coq Require Import Permutation.

(** ** Induction over command trees *)
Section CmdInd.
Variable P : cmd -> Prop.
Hypothesis H : forall prog help aliases wraps abc abo inh options positionals subcommands,
  (forall l, subcommands = Some l -> Forall P l) ->
  P (Cmd prog help aliases wraps abc abo inh options positionals subcommands).
Fixpoint cmd_ind' (c : cmd) : P c :=
  match c with
  | Cmd prog help aliases wraps abc abo inh options positionals subcommands =>
      H prog help aliases wraps abc abo inh options positionals subcommands
        (match subcommands return (forall l, subcommands = Some l -> Forall P l) with
         | None => fun l E => match E in (_ = x) return
                                match x with Some _ => Forall P l | None => True end
                              with eq_refl => I end
         | Some l0 => fun l E =>
             match E in (_ = x) return match x with Some l => Forall P l | None => True end with
             | eq_refl =>
                 (fix go l := match l return Forall P l with
                              | [] => Forall_nil P
                              | x :: l' => Forall_cons x (cmd_ind' x) (go l')
                              end) l0
             end
         end)
  end.
End CmdInd.

Fixpoint size (c : cmd) : nat :=
  let 'Cmd _ _ _ _ _ _ _ _ _ subcommands := c in
  S (match subcommands with None => 0 | Some l => list_sum (map size l) end).

Lemma size_sub c x : In x (subs c) -> size x < size c.
Proof.
  destruct c as [a b cc d e f g h i [l|]]; cbn; [|tauto]. intros Hx.
  enough (size x <= list_sum (map size l)) by lia.
  induction l as [|y l IH]; [destruct Hx|]. unfold list_sum in *. cbn [map fold_right].
  destruct Hx as [->|Hx]; [lia|]. specialize (IH Hx). lia.
Qed.

(** ** Equality *)
Lemma xbool_eqb_eq a b : xbool_eqb a b = true <-> a = b.
Proof. destruct a, b; cbn; split; congruence. Qed.

Lemma opt_eqb_eq a b : opt_eqb a b = true <-> forget_opt a = forget_opt b.
Proof.
  destruct a, b. unfold opt_eqb, forget_opt. cbn.
  rewrite !andb_true_iff, !list_eqb_strs, !(option_eqb_eq _ str_eqb_eq), !Bool.eqb_true_iff,
    xbool_eqb_eq.
  rewrite (option_eqb_eq (list_eqb value_eqb)), (option_eqb_eq (list_eqb str_eqb)).
  - split; [intuition congruence|]. intros E. injection E. intuition congruence.
  - apply list_eqb_strs.
  - intros x y. apply list_eqb_eq. apply Forall_forall. intros v _ w. apply value_eqb_eq.
Qed.

Lemma pos_eqb_eq a b : pos_eqb a b = true <-> a = b.
Proof.
  destruct a, b. unfold pos_eqb. cbn.
  rewrite !andb_true_iff, !(option_eqb_eq _ str_eqb_eq), !Bool.eqb_true_iff, Z.eqb_eq.
  rewrite list_eqb_eq.
  - split; [intuition congruence|]. intros E. injection E. intuition congruence.
  - apply Forall_forall. intros v _ w. apply value_eqb_eq.
Qed.

Lemma list_eqb_map {A B} (eqb : A -> A -> bool) (f : A -> B) a :
  Forall (fun x => forall y, eqb x y = true <-> f x = f y) a ->
  forall b, list_eqb eqb a b = true <-> map f a = map f b.
Proof.
  induction 1 as [|x a Hx _ IH]; intros [|y b]; cbn; try easy.
  rewrite andb_true_iff, Hx, IH. split; [intros [-> ->]; reflexivity|].
  intros E. injection E. auto.
Qed.

Lemma cmd_eqb_eq a : forall b, cmd_eqb a b = true <-> forget a = forget b.
Proof.
  induction a as [prog help aliases wraps abc abo inh options positionals subcommands IH]
    using cmd_ind'.
  intros [prog' help' aliases' wraps' abc' abo' inh' options' positionals' subcommands'].
  cbn [cmd_eqb forget c_prog c_help c_aliases c_wraps c_abbrev_cmds c_abbrev_opts c_inherit
       c_options c_positionals c_subcommands].
  rewrite !andb_true_iff, str_eqb_eq, list_eqb_strs, !(option_eqb_eq _ str_eqb_eq), !xbool_eqb_eq.
  rewrite (list_eqb_map opt_eqb forget_opt)
    by (apply Forall_forall; intros x _ y; apply opt_eqb_eq).
  rewrite (list_eqb_eq pos_eqb) by (apply Forall_forall; intros x _ y; apply pos_eqb_eq).
  assert (Hs : match subcommands, subcommands' with
               | None, None => true
               | Some x, Some y => list_eqb cmd_eqb x y
               | _, _ => false
               end = true
    <-> match subcommands with None => None | Some l => Some (map forget l) end
      = match subcommands' with None => None | Some l => Some (map forget l) end).
  { destruct subcommands as [l|], subcommands' as [l'|]; try easy.
    rewrite (list_eqb_map cmd_eqb forget) by (apply IH; reflexivity).
    split; [intros ->; reflexivity|intros E; injection E; auto]. }
  rewrite Hs. split; [intuition congruence|].
  intros E. injection E. intuition congruence.
Qed.

Lemma size_forget c : size (forget c) = size c.
Proof.
  induction c as [prog help aliases wraps abc abo inh options positionals subcommands IH]
    using cmd_ind'.
  cbn. f_equal. destruct subcommands as [l|]; [|reflexivity].
  specialize (IH l eq_refl). rewrite map_map. f_equal.
  apply map_ext_in. intros x Hx. rewrite Forall_forall in IH. auto.
Qed.

Lemma cmd_eqb_refl c : cmd_eqb c c = true.
Proof. apply cmd_eqb_eq. reflexivity. Qed.

Lemma cmd_eqb_sym a b : cmd_eqb a b = cmd_eqb b a.
Proof.
  destruct (cmd_eqb b a) eqn:E.
  - apply cmd_eqb_eq. symmetry. apply cmd_eqb_eq. exact E.
  - apply not_true_iff_false. intros H. apply cmd_eqb_eq in H. symmetry in H.
    apply cmd_eqb_eq in H. congruence.
Qed.

Lemma cmd_eqb_trans a b c : cmd_eqb a b = true -> cmd_eqb b c = true -> cmd_eqb a c = true.
Proof. rewrite !cmd_eqb_eq. congruence. Qed.

Lemma cmd_eqb_size a b : cmd_eqb a b = true -> size a = size b.
Proof. rewrite cmd_eqb_eq. intros E. rewrite <- (size_forget a), <- (size_forget b), E. reflexivity. Qed.

(** ** Located commands *)
Fixpoint chain_ok (chain : list cmd) : Prop :=
  match chain with
  | c :: ((p :: _) as chain') => In c (subs p) /\ chain_ok chain'
  | _ => True
  end.

Lemma located_chain root ps c : located root ps c -> chain_ok (c :: ps).
Proof.
  induction 1 as [|ps c sub H IH Hin]; [exact I|].
  cbn [chain_ok] in *. split; [exact Hin|exact IH].
Qed.

Lemma chain_size c ps : chain_ok (c :: ps) -> forall p, In p ps -> size c < size p.
Proof.
  revert c; induction ps as [|q ps IH]; intros c H p Hp; [destruct Hp|].
  destruct H as [Hin H]. apply size_sub in Hin. destruct Hp as [<-|Hp]; [exact Hin|].
  specialize (IH q H p Hp). lia.
Qed.

Lemma located_subcommands root ps c : located root ps c ->
  forall p, In p ps -> is_some (c_subcommands p) = true.
Proof.
  induction 1 as [|ps c sub H IH Hin]; intros p Hp; [destruct Hp|].
  destruct Hp as [<-|Hp]; [|auto]. unfold subs in Hin.
  destruct (c_subcommands c); [reflexivity|destruct Hin].
Qed.

Lemma parents_loop_eq ps acc : parents_loop ps acc = rev ps ++ acc.
Proof.
  revert acc; induction ps as [|p ps IH]; intros acc; [reflexivity|].
  cbn. rewrite IH, <- app_assoc. reflexivity.
Qed.

Lemma rev_get_parents ps c : rev (get_parents ps c true) = c :: ps.
Proof.
  unfold get_parents. rewrite parents_loop_eq, app_nil_r, rev_app_distr, rev_involutive. reflexivity.
Qed.

(** ** Sorting of strings *)
Lemma str_leb_total a b : str_leb a b = false -> str_leb b a = true.
Proof.
  revert b; induction a as [|x a IH]; intros [|y b]; cbn; try easy.
  rewrite orb_false_iff, andb_false_iff, orb_true_iff, andb_true_iff, N.ltb_lt, N.ltb_ge, N.eqb_eq,
    N.eqb_neq. intros [H1 [H2|H2]]; [left; lia|].
  destruct (N.eq_dec y x); [right; auto|left; lia].
Qed.

Lemma str_leb_antisym a b : str_leb a b = true -> str_leb b a = true -> a = b.
Proof.
  revert b; induction a as [|x a IH]; intros [|y b]; cbn; try easy.
  rewrite !orb_true_iff, !andb_true_iff, !N.ltb_lt, !N.eqb_eq.
  intros [H1|[-> H1]] [H2|[H3 H2]]; try lia. rewrite (IH b); auto.
Qed.

Lemma str_leb_trans a b c : str_leb a b = true -> str_leb b c = true -> str_leb a c = true.
Proof.
  revert b c; induction a as [|x a IH]; intros [|y b] [|z c]; cbn; try easy.
  rewrite !orb_true_iff, !andb_true_iff, !N.ltb_lt, !N.eqb_eq.
  intros [H1|[-> H1]] [H2|[-> H2]]; try (left; lia). right. split; [reflexivity|]. eauto.
Qed.

Lemma insert_str_perm x l : Permutation (insert_str x l) (x :: l).
Proof.
  induction l as [|y l IH]; cbn; [reflexivity|].
  destruct (str_leb x y); [reflexivity|]. rewrite IH. constructor.
Qed.
Lemma sort_strs_perm l : Permutation (sort_strs l) l.
Proof.
  induction l as [|x l IH]; cbn; [reflexivity|]. rewrite insert_str_perm. constructor. exact IH.
Qed.

Inductive ssorted : list str -> Prop :=
| ss_nil : ssorted []
| ss_cons x l : (forall y, In y l -> str_leb x y = true) -> ssorted l -> ssorted (x :: l).

Lemma insert_str_sorted x l : ssorted l -> ssorted (insert_str x l).
Proof.
  induction 1 as [|y l Hy Hl IH]; cbn; [constructor; [intros z []|constructor]|].
  destruct (str_leb x y) eqn:E.
  - constructor; [|constructor; assumption].
    intros z [<-|Hz]; [exact E|]. apply str_leb_trans with y; auto.
  - constructor; [|exact IH]. intros z Hz. apply (Permutation_in _ (insert_str_perm x l)) in Hz.
    destruct Hz as [<-|Hz]; [apply str_leb_total; exact E|auto].
Qed.
Lemma sort_strs_sorted l : ssorted (sort_strs l).
Proof. induction l as [|x l IH]; cbn; [constructor|]. apply insert_str_sorted. exact IH. Qed.

Lemma ssorted_perm a b : ssorted a -> ssorted b -> Permutation a b -> a = b.
Proof.
  intros Ha; revert b; induction Ha as [|x a Hx Ha IH]; intros b Hb Hp.
  - apply Permutation_nil in Hp. congruence.
  - destruct Hb as [|y b Hy Hb]; [symmetry in Hp; apply Permutation_nil in Hp; discriminate|].
    assert (x = y).
    { assert (Hin1 : In x (y :: b)) by (apply (Permutation_in _ Hp); left; reflexivity).
      assert (Hin2 : In y (x :: a)) by (apply (Permutation_in _ (Permutation_sym Hp)); left; reflexivity).
      destruct Hin1 as [->|Hin1]; [reflexivity|]. destruct Hin2 as [->|Hin2]; [reflexivity|].
      apply str_leb_antisym; auto. }
    subst y. f_equal. apply IH; [exact Hb|]. apply Permutation_cons_inv with x. exact Hp.
Qed.

Lemma sort_strs_eq a b : sort_strs a = sort_strs b <-> Permutation a b.
Proof.
  split; intros H.
  - rewrite <- (sort_strs_perm a), H. apply sort_strs_perm.
  - apply ssorted_perm; try apply sort_strs_sorted.
    rewrite !sort_strs_perm. exact H.
Qed.

(** ** Well-formed trees *)
Definition wf_opt (o : opt) : Prop := mk_option o = Ok o.
Definition wf_pos (p : pos) : Prop :=
  mk_positional (p_number p) (p_metavar p) (p_help p) (Some (p_complete p))
    (p_nosort p) (p_repeatable p) (p_when p) (p_capture p) = Ok p.
Definition wf_head (c : cmd) : Prop :=
  mk_commandline (c_prog c) (c_help c) (c_aliases c) (c_wraps c) (c_abbrev_cmds c)
    (c_abbrev_opts c) (c_inherit c)
  = Ok (Cmd (c_prog c) (c_help c) (c_aliases c) (c_wraps c) (c_abbrev_cmds c)
    (c_abbrev_opts c) (c_inherit c) [] [] None).

Inductive wfc : cmd -> Prop :=
| wfc_intro c : wf_head c -> Forall wf_opt (c_options c) -> Forall wf_pos (c_positionals c) ->
    NoDup (map c_prog (subs c)) -> (forall x, In x (subs c) -> wfc x) -> wfc c.

Lemma mk_option_same o o' : mk_option o = Ok o' -> o' = o /\ wf_opt o.
Proof.
  intros H. assert (o' = o).
  { unfold mk_option in H.
    repeat match type of H with (if ?b then _ else _) = _ => destruct b; [discriminate|] end.
    congruence. }
  subst. split; [reflexivity|exact H].
Qed.

Lemma mk_positional_wf n mv hp co ns rp wh ca p :
  mk_positional n mv hp co ns rp wh ca = Ok p -> wf_pos p.
Proof.
  unfold wf_pos, mk_positional. intros H.
  destruct (match ca with Some x => negb (is_valid_variable_name x) | None => false end) eqn:E1;
    [discriminate|].
  destruct (n <=? 0)%Z eqn:E2; [discriminate|]. injection H as <-. cbn. rewrite E1, E2.
  destruct co as [[|x l]|]; reflexivity.
Qed.

Lemma mk_positional_id p : wf_pos p -> forall n mv hp co ns rp wh ca, 
  p = MkPos n mv hp co ns rp wh ca ->
  mk_positional n mv hp (Some co) ns rp wh ca = Ok p.
Proof. intros H n mv hp co ns rp wh ca ->. exact H. Qed.

Lemma find_none_prog l x : get_subcommand_by_name l x = None <-> ~ In x (map c_prog l).
Proof.
  unfold get_subcommand_by_name. rewrite in_map_iff. split.
  - intros H [c [Hc Hin]]. apply (find_none _ _ H) in Hin. rewrite Hc, str_eqb_refl in Hin. discriminate.
  - intros H. destruct (find _ l) as [c|] eqn:E; [|reflexivity].
    apply find_some in E as [Hin Hc]. apply str_eqb_eq in Hc. exfalso. apply H. eauto.
Qed.

Lemma add_object_ok l c l' : add_commandline_object l c = Ok l' <->
  l' = l ++ [c] /\ ~ In (c_prog c) (map c_prog l).
Proof.
  unfold add_commandline_object. rewrite <- find_none_prog.
  destruct (get_subcommand_by_name l (c_prog c)); split; try easy.
  - intros H. injection H as <-. auto.
  - intros [-> _]. reflexivity.
Qed.

Lemma NoDup_snoc {A} (l : list A) x : NoDup l -> ~ In x l -> NoDup (l ++ [x]).
Proof.
  intros H Hn. apply (Permutation_NoDup (Permutation_cons_append l x)). constructor; assumption.
Qed.

Lemma built_wfc c : built c -> wfc c.
Proof.
  induction 1 as [prog help aliases wraps abc abo inh c E
                 |c o c' Hb IH E|c p c' Hb IH E|c c' Hb IH E|c l sub l' Hb IH Hs Hb2 IH2 E].
  - assert (c = Cmd prog help aliases wraps abc abo inh [] [] None) as ->.
    { unfold mk_commandline in E.
      repeat match type of E with (if ?b then _ else _) = _ => destruct b; [discriminate|] end.
      congruence. }
    constructor; cbn; [exact E|constructor|constructor|constructor|tauto].
  - unfold add_option in E. destruct (mk_option o) as [e|o'] eqn:Eo; [discriminate|]. cbn in E.
    apply mk_option_same in Eo as [-> Ho]. injection E as <-.
    destruct IH as [c H1 H2 H3 H4 H5]. destruct c as [a1 a2 a3 a4 a5 a6 a7 os ps sb].
    constructor; cbn in *; try assumption. apply Forall_app. auto.
  - unfold add_positional in E.
    destruct (mk_positional _ _ _ _ _ _ _ _) as [e|p'] eqn:Eo; [discriminate|]. cbn in E.
    apply mk_positional_wf in Eo. injection E as <-.
    destruct IH as [c H1 H2 H3 H4 H5]. destruct c as [a1 a2 a3 a4 a5 a6 a7 os ps sb].
    constructor; cbn in *; try assumption. apply Forall_app. auto.
  - unfold add_subcommands in E. destruct (c_subcommands c); [discriminate|]. injection E as <-.
    destruct IH as [c H1 H2 H3 H4 H5]. destruct c as [a1 a2 a3 a4 a5 a6 a7 os ps sb].
    constructor; cbn in *; try assumption; [constructor|intros x []].
  - apply add_object_ok in E as [-> Hn].
    destruct IH as [c H1 H2 H3 H4 H5]. destruct c as [a1 a2 a3 a4 a5 a6 a7 os ps sb].
    cbn in Hs. subst sb. constructor; cbn in *; try assumption.
    + rewrite map_app. apply NoDup_snoc; assumption.
    + intros x Hx. apply in_app_or in Hx as [Hx|[<-|[]]]; [apply H5; exact Hx|exact IH2].
Qed.

(** ** Copy *)
Lemma fold_add_option os c : Forall wf_opt os ->
  fold_res add_option os c = Ok (set_options c (c_options c ++ os)).
Proof.
  intros H; revert c; induction H as [|o os Ho _ IH]; intros c; cbn [fold_res].
  - destruct c; cbn. rewrite app_nil_r. reflexivity.
  - unfold add_option at 1. rewrite Ho. cbn [bind]. rewrite IH.
    destruct c; cbn. rewrite <- app_assoc. reflexivity.
Qed.
Lemma fold_add_positional ps c : Forall wf_pos ps ->
  fold_res add_positional ps c = Ok (set_positionals c (c_positionals c ++ ps)).
Proof.
  intros H; revert c; induction H as [|p ps Hp _ IH]; intros c; cbn [fold_res].
  - destruct c; cbn. rewrite app_nil_r. reflexivity.
  - unfold add_positional at 1. rewrite Hp. cbn [bind]. rewrite IH.
    destruct c; cbn. rewrite <- app_assoc. reflexivity.
Qed.

Lemma copy_wfc c : wfc c -> copy c = Ok c.
Proof.
  induction c as [prog help aliases wraps abc abo inh options positionals subcommands IH]
    using cmd_ind'.
  intros H. inversion H as [c' H1 H2 H3 H4 H5 E]; subst c'. unfold wf_head in H1.
  cbn [c_prog c_help c_aliases c_wraps c_abbrev_cmds c_abbrev_opts c_inherit c_options
       c_positionals] in H1, H2, H3.
  cbn [copy]. rewrite H1. cbn [bind]. rewrite fold_add_option by exact H2. cbn [bind set_options c_options app].
  rewrite fold_add_positional by exact H3. cbn [bind set_positionals c_positionals app].
  destruct subcommands as [l|]; [|reflexivity].
  cbn [add_subcommands c_subcommands set_subcommands bind].
  specialize (IH l eq_refl). unfold subs in H4, H5. cbn [c_subcommands] in H4, H5.
  assert (HH : forall l2 acc, Forall (fun c => wfc c -> copy c = Ok c) l2 ->
            NoDup (map c_prog (acc ++ l2)) -> (forall x, In x l2 -> wfc x) ->
            (fix go (acc : list cmd) (l : list cmd) : res (list cmd) :=
                  match l with
                  | [] => Ok acc
                  | x :: l' => do y <- copy x; do acc' <- add_commandline_object acc y; go acc' l'
                  end) acc l2 = Ok (acc ++ l2)).
  { intros l2; induction l2 as [|x l2 IHl]; intros acc Hc Hn Hw.
    - rewrite app_nil_r. reflexivity.
    - inversion Hc as [|x' l' Hx Hl]; subst. rewrite Hx by (apply Hw; left; reflexivity).
      cbn [bind].
      assert (E2 : add_commandline_object acc x = Ok (acc ++ [x])).
      { apply add_object_ok. split; [reflexivity|].
        rewrite map_app in Hn. cbn [map] in Hn. apply NoDup_remove_2 in Hn.
        intros Hx2. apply Hn. apply in_or_app. left; exact Hx2. }
      rewrite E2. cbn [bind].
      rewrite IHl; [rewrite <- app_assoc; reflexivity|exact Hl| |].
      + rewrite <- app_assoc. exact Hn.
      + intros y Hy. apply Hw. right; exact Hy. }
  rewrite (HH l []); [reflexivity|exact IH|exact H4|exact H5].
Qed.

Lemma copy_built c : built c -> copy c = Ok c.
Proof. intros H. apply copy_wfc, built_wfc, H. Qed.

(** ** Subcommand names *)
Lemma adds_unique ops l l' : NoDup (map c_prog l) -> fold_res add_commandline_object ops l = Ok l' ->
  l' = l ++ ops /\ NoDup (map c_prog l').
Proof.
  revert l; induction ops as [|c ops IH]; intros l Hn E; cbn [fold_res] in E.
  - injection E as <-. rewrite app_nil_r. auto.
  - destruct (add_commandline_object l c) as [e|l1] eqn:E1; [discriminate|]. cbn [bind] in E.
    apply add_object_ok in E1 as [-> Hnin]. apply IH in E as [-> Hn2].
    + rewrite <- app_assoc. cbn [app] in *. rewrite <- app_assoc in Hn2. auto.
    + rewrite map_app. apply NoDup_snoc; assumption.
Qed.

Lemma adds_iff ops : (exists l', fold_res add_commandline_object ops [] = Ok l') <->
  NoDup (map c_prog ops).
Proof.
  split.
  - intros [l' E]. apply adds_unique in E as [-> H]; [exact H|constructor].
  - enough (H : forall l, NoDup (map c_prog (l ++ ops)) ->
              fold_res add_commandline_object ops l = Ok (l ++ ops)).
    { intros Hn. exists ops. apply (H [] Hn). }
    induction ops as [|c ops IH]; intros l Hn; cbn [fold_res]; [rewrite app_nil_r; reflexivity|].
    assert (E : add_commandline_object l c = Ok (l ++ [c])).
    { apply add_object_ok. split; [reflexivity|]. rewrite map_app in Hn. cbn [map] in Hn.
      apply NoDup_remove_2 in Hn. intros Hx. apply Hn. apply in_or_app. left; exact Hx. }
    rewrite E. cbn [bind]. rewrite IH; [rewrite <- app_assoc; reflexivity|].
    rewrite <- app_assoc. exact Hn.
Qed.

Lemma lookup_unique l c : NoDup (map c_prog l) -> In c l ->
  get_subcommand_by_name l (c_prog c) = Some c.
Proof.
  induction l as [|x l IH]; intros Hn Hin; [destruct Hin|].
  cbn. inversion Hn as [|y l' Hx Hl]; subst.
  destruct Hin as [->|Hin]; [rewrite str_eqb_refl; reflexivity|].
  destruct (str_eqb_spec (c_prog x) (c_prog c)) as [E|]; [|apply IH; assumption].
  exfalso. apply Hx. rewrite E. apply in_map. exact Hin.
Qed.

(** ** Visible options *)
Lemma count_perm (a b : list str) :
  forallb (fun x => Nat.eqb (count_occ str_eq_dec a x) (count_occ str_eq_dec b x)) (a ++ b) = true
  <-> Permutation a b.
Proof.
  rewrite forallb_forall. rewrite (Permutation_count_occ str_eq_dec). split.
  - intros H x. destruct (in_dec str_eq_dec x (a ++ b)) as [Hi|Hn].
    + apply Nat.eqb_eq. auto.
    + assert (~ In x a /\ ~ In x b) as [Ha Hb] by (split; intros ?; apply Hn, in_or_app; auto).
      rewrite (proj1 (count_occ_not_In _ _ _) Ha), (proj1 (count_occ_not_In _ _ _) Hb). reflexivity.
  - intros H x _. apply Nat.eqb_eq. apply H.
Qed.

Lemma same_strings_perm a b : same_strings a b = true <-> Permutation (o_strings a) (o_strings b).
Proof. apply count_perm. Qed.

Lemma valid_no_space x : is_valid_option_string x = true -> ~ In SP x.
Proof.
  intros H. apply valid_option_string_iff in H as [y [-> [_ [_ H]]]].
  intros [E|Hin]; [discriminate|]. apply H in Hin as [Hs _]. vm_compute in Hs. discriminate.
Qed.

Definition valid_strings (o : opt) : Prop :=
  o_strings o <> [] /\ forall x, In x (o_strings o) -> is_valid_option_string x = true.

Lemma wf_opt_valid o : wf_opt o -> valid_strings o.
Proof.
  unfold wf_opt, mk_option. intros H.
  destruct (nonempty (o_strings o)) eqn:E1; [cbn in H|discriminate].
  destruct (forallb is_valid_option_string (o_strings o)) eqn:E2; [cbn in H|discriminate].
  split; [intros E; rewrite E in E1; discriminate|]. apply forallb_forall. exact E2.
Qed.

Lemma key_eq a b : valid_strings a -> valid_strings b ->
  (option_strings_key a = option_strings_key b <-> same_strings a b = true).
Proof.
  intros [Ha1 Ha2] [Hb1 Hb2]. rewrite same_strings_perm, <- sort_strs_eq.
  unfold option_strings_key. split; [|congruence]. intros E.
  assert (H : forall o, o_strings o <> [] ->
             (forall x, In x (o_strings o) -> is_valid_option_string x = true) ->
             split_c SP (join [SP] (sort_strs (o_strings o))) = sort_strs (o_strings o)).
  { intros o Hn Hv. apply split_join_c.
    - intros E2. apply Hn. apply Permutation_nil. rewrite <- E2. apply sort_strs_perm.
    - intros w Hw. apply valid_no_space, Hv. apply (Permutation_in _ (sort_strs_perm _) Hw). }
  rewrite <- (H a Ha1 Ha2), <- (H b Hb1 Hb2), E. reflexivity.
Qed.

(** The dictionary after the options of one command *)
Definition wrap (c : cmd) (g : list (str * list opt)) : list (str * (cmd * list opt)) :=
  map (fun e => (fst e, (c, snd e))) g.
Definition keys {V} (d : list (str * V)) : list str := map fst d.

Lemma dget_app {V} k (d e : list (str * V)) :
  dget str_eqb k (d ++ e) = match dget str_eqb k d with Some v => Some v | None => dget str_eqb k e end.
Proof.
  induction d as [|[k' v] d IH]; cbn; [reflexivity|].
  destruct (str_eqb k k'); [reflexivity|exact IH].
Qed.
Lemma dset_app_notin {V} k v (d e : list (str * V)) : dget str_eqb k d = None ->
  dset str_eqb k v (d ++ e) = d ++ dset str_eqb k v e.
Proof.
  induction d as [|[k' v'] d IH]; cbn; [reflexivity|].
  destruct (str_eqb k k'); [discriminate|]. intros H. rewrite IH by exact H. reflexivity.
Qed.
Lemma dset_wrap c k os g : dset str_eqb k (c, os) (wrap c g) = wrap c (dset str_eqb k os g).
Proof.
  induction g as [|[k' v'] g IH]; cbn; [reflexivity|].
  destruct (str_eqb k k'); cbn; [reflexivity|]. fold (wrap c g). rewrite IH. reflexivity.
Qed.
Lemma dget_wrap c k g : dget str_eqb k (wrap c g) = option_map (fun os => (c, os)) (dget str_eqb k g).
Proof.
  induction g as [|[k' v'] g IH]; cbn; [reflexivity|].
  destruct (str_eqb k k'); [reflexivity|exact IH].
Qed.
Lemma dset_dset {V} k v1 v2 (d : list (str * V)) :
  dset str_eqb k v2 (dset str_eqb k v1 d) = dset str_eqb k v2 d.
Proof.
  induction d as [|[k' v'] d IH]; cbn.
  - rewrite str_eqb_refl. reflexivity.
  - destruct (str_eqb k k') eqn:E; cbn; rewrite E; [reflexivity|]. rewrite IH. reflexivity.
Qed.

Lemma getter_add_step c d g o :
  (forall k c' os, In (k, (c', os)) d -> cmd_eqb c' c = false) ->
  getter_add (d ++ wrap c g) o c =
  if dmem str_eqb (option_strings_key o) d then d ++ wrap c g
  else d ++ wrap c (match dget str_eqb (option_strings_key o) g with
                    | Some items => dset str_eqb (option_strings_key o) (items ++ [o]) g
                    | None => dset str_eqb (option_strings_key o) [o] g
                    end).
Proof.
  intros Hd. unfold getter_add, dmem. cbv zeta. rewrite dget_app.
  destruct (dget str_eqb (option_strings_key o) d) as [[c' os]|] eqn:E.
  - rewrite dget_app, E. rewrite (Hd _ _ _ (dget_In _ str_eqb_spec _ _ _ E)). reflexivity.
  - rewrite dget_wrap.
    destruct (dget str_eqb (option_strings_key o) g) as [os|] eqn:Eg; cbn [option_map].
    + rewrite dget_app, E, dget_wrap, Eg. cbn [option_map]. rewrite cmd_eqb_refl.
      rewrite dset_app_notin by exact E. rewrite dset_wrap. reflexivity.
    + rewrite (dget_dset_same _ str_eqb_spec). rewrite cmd_eqb_refl, dset_dset.
      rewrite dset_app_notin by exact E. rewrite dset_wrap. reflexivity.
Qed.

Lemma getter_fold c d l g :
  (forall k c' os, In (k, (c', os)) d -> cmd_eqb c' c = false) ->
  fold_left (fun d o => getter_add d o c) l (d ++ wrap c g)
  = d ++ wrap c (group_by_loop str_eqb option_strings_key g
                   (filter (fun o => negb (dmem str_eqb (option_strings_key o) d)) l)).
Proof.
  intros Hd. revert g; induction l as [|o l IH]; intros g; [reflexivity|].
  cbn [fold_left filter]. rewrite getter_add_step by exact Hd.
  destruct (dmem str_eqb (option_strings_key o) d); cbn [negb]; [apply IH|].
  cbn [group_by_loop]. rewrite IH.
  destruct (dget str_eqb (option_strings_key o) g); reflexivity.
Qed.

Lemma flat_wrap c g : flat_map (fun e => snd (snd e)) (wrap c g) = concat (map snd g).
Proof. induction g as [|[k os] g IH]; cbn; [reflexivity|]. fold (wrap c g). rewrite IH. reflexivity. Qed.

Lemma keys_wrap c g : keys (wrap c g) = keys g.
Proof. unfold keys, wrap. rewrite map_map. reflexivity. Qed.

(** What the getter collects, command by command *)
Definition grouped (l : list opt) : list opt :=
  concat (map snd (group_by str_eqb l option_strings_key)).
Fixpoint collected (seen : list opt) (ls : list (list opt)) : list opt :=
  match ls with
  | [] => []
  | l :: ls' =>
      grouped (filter (fun o => negb (mems (option_strings_key o) (map option_strings_key seen))) l)
      ++ collected (seen ++ l) ls'
  end.

Lemma group_keys l k : In k (keys (group_by str_eqb l option_strings_key)) <->
  In k (map option_strings_key l).
Proof.
  rewrite (group_by_eq str_eqb str_eq_dec str_eqb_spec). unfold keys, groups_of.
  rewrite map_map. cbn [fst]. rewrite map_id, <- in_rev, nodup_In, <- in_rev. reflexivity.
Qed.

Fixpoint increasing (chain : list cmd) : Prop :=
  match chain with
  | [] => True
  | c :: chain' => (forall p, In p chain' -> size c < size p) /\ increasing chain'
  end.

Lemma chain_increasing chain : chain_ok chain -> increasing chain.
Proof.
  induction chain as [|c chain IH]; intros H; [exact I|]. split.
  - apply chain_size. exact H.
  - apply IH. destruct chain; [exact I|]. apply H.
Qed.

Lemma getter_chain (f : cmd -> list opt) chain d seen : increasing chain ->
  (forall k c' os, In (k, (c', os)) d -> forall c, In c chain -> size c' < size c) ->
  (forall k, In k (keys d) <-> In k (map option_strings_key seen)) ->
  flat_map (fun e => snd (snd e))
    (fold_left (fun d c => fold_left (fun d o => getter_add d o c) (f c) d) chain d)
  = flat_map (fun e => snd (snd e)) d ++ collected seen (map f chain).
Proof.
  revert d seen; induction chain as [|c chain IH]; intros d seen Hi Hd Hk.
  - cbn. rewrite app_nil_r. reflexivity.
  - cbn [fold_left map collected]. destruct Hi as [Hc Hi].
    pose proof (getter_fold c d (f c) []) as E. cbn [wrap map] in E. rewrite app_nil_r in E.
    rewrite E.
    2:{ intros k c' os Hin. apply not_true_iff_false. intros He. apply cmd_eqb_size in He.
        specialize (Hd k c' os Hin c (or_introl eq_refl)). lia. }
    fold (group_by str_eqb (filter (fun o => negb (dmem str_eqb (option_strings_key o) d)) (f c))
            option_strings_key).
    assert (Ef : filter (fun o => negb (dmem str_eqb (option_strings_key o) d)) (f c)
               = filter (fun o => negb (mems (option_strings_key o) (map option_strings_key seen))) (f c)).
    { apply filter_ext. intros o. f_equal. apply eq_true_iff_eq.
      rewrite (dmem_In _ str_eqb_spec), mems_In. apply Hk. }
    rewrite Ef. rewrite (IH _ (seen ++ f c)).
    + rewrite flat_map_app, flat_wrap, <- app_assoc. reflexivity.
    + exact Hi.
    + intros k c' os Hin p Hp. apply in_app_or in Hin as [Hin|Hin].
      * apply (Hd k c' os Hin). right; exact Hp.
      * unfold wrap in Hin. apply in_map_iff in Hin as [[k2 os2] [E2 _]]. injection E2 as _ <- _.
        apply Hc. exact Hp.
    + intros k. unfold keys. rewrite map_app, in_app_iff. fold (keys d).
      fold (keys (wrap c (group_by str_eqb (filter (fun o => negb (mems (option_strings_key o)
         (map option_strings_key seen))) (f c)) option_strings_key))).
      rewrite keys_wrap, group_keys, Hk, map_app, in_app_iff.
      split; intros [H|H]; auto.
      * right. apply in_map_iff in H as [o [<- Ho]]. apply filter_In in Ho as [Ho _].
        apply in_map. exact Ho.
      * destruct (mems k (map option_strings_key seen)) eqn:Em.
        -- left. apply mems_In. exact Em.
        -- right. apply in_map_iff in H as [o [<- Ho]]. apply in_map. apply filter_In.
           rewrite Em. auto.
Qed.

Lemma fold_left_filter {A B} (p : B -> bool) (f : A -> B -> A) l a :
  fold_left (fun a x => if p x then f a x else a) l a = fold_left f (filter p l) a.
Proof.
  revert a; induction l as [|x l IH]; intros a; cbn; [reflexivity|].
  destruct (p x); cbn; apply IH.
Qed.

Definition arg_filter (only : bool) (c : cmd) : list opt :=
  filter (fun o => negb only || otruthy (o_complete o)) (c_options c).

Lemma fold_left_ext {A B} (f g : A -> B -> A) l a : (forall a x, f a x = g a x) ->
  fold_left f l a = fold_left g l a.
Proof. intros H. revert a; induction l as [|x l IH]; intros a; cbn; [reflexivity|]. rewrite H. apply IH. Qed.

Lemma get_options_collected ps c wp only : chain_ok (c :: ps) ->
  get_options ps c wp only = collected [] (map (arg_filter only) (if wp then c :: ps else [c])).
Proof.
  intros H. unfold get_options.
  replace (rev (if wp then get_parents ps c true else [c])) with (if wp then c :: ps else [c])
    by (destruct wp; [rewrite rev_get_parents; reflexivity|reflexivity]).
  rewrite (fold_left_ext _ (fun d c => fold_left (fun d o => getter_add d o c) (arg_filter only c) d)).
  - rewrite (getter_chain (arg_filter only) _ [] []); [reflexivity| |intros k c' os []|reflexivity].
    destruct wp; [apply chain_increasing; exact H|]. cbn. split; [intros p []|exact I].
  - intros a x. unfold arg_filter. rewrite <- fold_left_filter. reflexivity.
Qed.

(** Grouping only reorders. *)
Lemma concat_filter_perm {A K} (eqb : K -> K -> bool) (Hs : forall a b, reflect (a = b) (eqb a b))
    (key : A -> K) ks l : NoDup ks -> (forall x, In x l -> In (key x) ks) ->
  Permutation (concat (map (fun k => filter (fun x => eqb (key x) k) l) ks)) l.
Proof.
  intros Hn. revert l. induction Hn as [|k ks Hk Hn IH]; intros l Hl.
  - destruct l as [|x l]; [constructor|]. destruct (Hl x); left; reflexivity.
  - cbn.
    assert (Hp : Permutation (filter (fun x => eqb (key x) k) l
                 ++ filter (fun x => negb (eqb (key x) k)) l) l).
    { clear. induction l as [|x l IHl]; cbn; [constructor|].
      destruct (eqb (key x) k); cbn; [constructor; exact IHl|].
      rewrite <- Permutation_middle. constructor. exact IHl. }
    rewrite <- Hp at 2. apply Permutation_app_head.
    rewrite <- (IH (filter (fun x => negb (eqb (key x) k)) l)).
    + erewrite map_ext_in; [reflexivity|]. intros k2 Hk2. cbn.
      clear -Hs Hk Hk2. induction l as [|x l IHl]; cbn; [reflexivity|].
      destruct (Hs (key x) k) as [E|E]; cbn.
      * destruct (Hs (key x) k2) as [E2|E2]; [subst; tauto|exact IHl].
      * destruct (Hs (key x) k2); [f_equal|]; exact IHl.
    + intros x Hx. apply filter_In in Hx as [Hx Hk2]. destruct (Hl x Hx) as [E|E]; [|exact E].
      subst k. destruct (Hs (key x) (key x)); [discriminate|congruence].
Qed.

Lemma grouped_perm l : Permutation (grouped l) l.
Proof.
  unfold grouped. rewrite (group_by_eq str_eqb str_eq_dec str_eqb_spec). unfold groups_of.
  rewrite map_map. cbn [snd]. apply concat_filter_perm.
  - apply str_eqb_spec.
  - apply NoDup_rev, NoDup_nodup.
  - intros x Hx. rewrite <- in_rev, nodup_In, <- in_rev. apply in_map. exact Hx.
Qed.

Lemma concat_filter_distinct {A K} (eqb : K -> K -> bool) (Hs : forall a b, reflect (a = b) (eqb a b))
    (key : A -> K) l : NoDup (map key l) ->
  concat (map (fun k => filter (fun x => eqb (key x) k) l) (map key l)) = l.
Proof.
  induction l as [|x l IH]; intros Hn; [reflexivity|].
  inversion Hn as [|k ks Hx Hl]; subst. cbn [map concat filter].
  destruct (Hs (key x) (key x)); [|congruence].
  assert (E : filter (fun y => eqb (key y) (key x)) l = []).
  { clear -Hx Hs. induction l as [|y l IHl]; cbn; [reflexivity|].
    destruct (Hs (key y) (key x)) as [E|E]; [exfalso; apply Hx; left; exact E|].
    apply IHl. intros H. apply Hx. right; exact H. }
  rewrite E. cbn. f_equal.
  rewrite <- (IH Hl) at 2. f_equal. apply map_ext_in. intros k Hk.
  destruct (Hs (key x) k) as [E2|]; [subst; tauto|reflexivity].
Qed.

Lemma nodup_id {A} (dec : forall a b : A, {a = b} + {a <> b}) l : NoDup l -> nodup dec l = l.
Proof. apply nodup_fixed_point. Qed.

Lemma grouped_distinct l : NoDup (map option_strings_key l) -> grouped l = l.
Proof.
  intros H. unfold grouped. rewrite (group_by_eq str_eqb str_eq_dec str_eqb_spec). unfold groups_of.
  rewrite map_map. cbn [snd]. rewrite nodup_id by (apply NoDup_rev; exact H).
  rewrite rev_involutive. apply concat_filter_distinct; [apply str_eqb_spec|exact H].
Qed.

Fixpoint visible_ls (seen : list opt) (ls : list (list opt)) : list opt :=
  match ls with
  | [] => []
  | l :: ls' => filter (fun o => negb (existsb (same_strings o) seen)) l ++ visible_ls (seen ++ l) ls'
  end.
Lemma visible_eq seen chain : visible seen chain = visible_ls seen (map c_options chain).
Proof. revert seen; induction chain as [|c chain IH]; intros seen; cbn; [reflexivity|]. rewrite IH. reflexivity. Qed.

Lemma shadow_eq o seen : valid_strings o -> (forall x, In x seen -> valid_strings x) ->
  mems (option_strings_key o) (map option_strings_key seen) = existsb (same_strings o) seen.
Proof.
  intros Ho Hs. apply eq_true_iff_eq. rewrite mems_In, in_map_iff, existsb_exists. split.
  - intros [x [E Hx]]. exists x. split; [exact Hx|]. apply key_eq; auto.
  - intros [x [Hx E]]. exists x. split; [|exact Hx]. symmetry. apply key_eq; auto.
Qed.

Lemma filter_shadow seen l : (forall x, In x seen -> valid_strings x) ->
  (forall x, In x l -> valid_strings x) ->
  filter (fun o => negb (mems (option_strings_key o) (map option_strings_key seen))) l
  = filter (fun o => negb (existsb (same_strings o) seen)) l.
Proof.
  intros Hs Hl. apply filter_ext_in. intros o Ho. f_equal. apply shadow_eq; auto.
Qed.

Lemma collected_perm seen ls : (forall x, In x seen -> valid_strings x) ->
  (forall l, In l ls -> forall x, In x l -> valid_strings x) ->
  Permutation (collected seen ls) (visible_ls seen ls).
Proof.
  revert seen; induction ls as [|l ls IH]; intros seen Hs Hl; [constructor|].
  cbn. apply Permutation_app.
  - rewrite grouped_perm, filter_shadow; [reflexivity|exact Hs|apply Hl; left; reflexivity].
  - apply IH.
    + intros x Hx. apply in_app_or in Hx as [Hx|Hx]; [auto|]. apply (Hl l); [left; reflexivity|exact Hx].
    + intros l' Hl'. apply Hl. right; exact Hl'.
Qed.

Lemma collected_distinct seen ls : (forall x, In x seen -> valid_strings x) ->
  (forall l, In l ls -> forall x, In x l -> valid_strings x) ->
  (forall l, In l ls -> NoDup (map option_strings_key l)) ->
  collected seen ls = visible_ls seen ls.
Proof.
  revert seen; induction ls as [|l ls IH]; intros seen Hs Hl Hn; [reflexivity|].
  cbn. f_equal.
  - rewrite grouped_distinct.
    + apply filter_shadow; [exact Hs|apply Hl; left; reflexivity].
    + specialize (Hn l (or_introl eq_refl)). clear -Hn. induction l as [|x l IHl]; cbn; [constructor|].
      inversion Hn as [|k ks Hx Hl]; subst.
      destruct (negb _); cbn; [|auto]. constructor; [|auto].
      intros Hin. apply Hx. apply in_map_iff in Hin as [y [<- Hy]]. apply filter_In in Hy as [Hy _].
      apply in_map. exact Hy.
  - apply IH.
    + intros x Hx. apply in_app_or in Hx as [Hx|Hx]; [auto|]. apply (Hl l); [left; reflexivity|exact Hx].
    + intros l' Hl'. apply Hl. right; exact Hl'.
    + intros l' Hl'. apply Hn. right; exact Hl'.
Qed.

Lemma located_wfc root ps c : wfc root -> located root ps c -> wfc c /\ forall p, In p ps -> wfc p.
Proof.
  intros Hw. induction 1 as [|ps c sub H IH Hin]; [split; [exact Hw|intros p []]|].
  destruct IH as [Hc Hps]. split.
  - destruct Hc as [c _ _ _ _ Hs]. apply Hs. exact Hin.
  - intros p [<-|Hp]; [exact Hc|auto].
Qed.

Lemma wfc_valid c : wfc c -> forall o, In o (c_options c) -> valid_strings o.
Proof.
  intros [c' _ H _ _ _] o Ho. rewrite Forall_forall in H. apply wf_opt_valid. auto.
Qed.

Lemma filter_all {A} (p : A -> bool) l : (forall x, In x l -> p x = true) -> filter p l = l.
Proof.
  induction l as [|x l IH]; intros H; cbn; [reflexivity|].
  rewrite H by (left; reflexivity). f_equal. apply IH. intros y Hy. apply H. right; exact Hy.
Qed.

Lemma get_options_visible root ps c : built root -> located root ps c ->
  Permutation (get_options ps c true false) (visible [] (c :: ps)) /\
  (no_twins (c :: ps) -> get_options ps c true false = visible [] (c :: ps)) /\
  (exists own inherited, get_options ps c true false = own ++ inherited /\
     Permutation own (c_options c)) /\
  Permutation (get_options ps c false false) (c_options c).
Proof.
  intros Hb Hl. apply built_wfc in Hb. destruct (located_wfc _ _ _ Hb Hl) as [Hc Hps].
  pose proof (located_chain _ _ _ Hl) as Hch.
  assert (Hf : forall c, arg_filter false c = c_options c).
  { intros x. apply filter_all. reflexivity. }
  assert (Hv : forall l, In l (map c_options (c :: ps)) -> forall x, In x l -> valid_strings x).
  { intros l Hin x Hx. apply in_map_iff in Hin as [p [<- Hp]]. revert x Hx. apply wfc_valid.
    destruct Hp as [<-|Hp]; [exact Hc|auto]. }
  rewrite !(get_options_collected ps c) by exact Hch.
  rewrite !(map_ext _ _ Hf), visible_eq. split; [|split; [|split]].
  - apply collected_perm; [intros x []|exact Hv].
  - intros Hn. apply collected_distinct; [intros x []|exact Hv|].
    intros l Hin. apply in_map_iff in Hin as [p [<- Hp]].
    assert (Hvp : forall o, In o (c_options p) -> valid_strings o).
    { apply Hv. apply in_map. exact Hp. }
    specialize (fun a o1 q o2 r => Hn p a o1 q o2 r Hp).
    remember (c_options p) as os eqn:Eos. clear -Hn Hvp.
    induction os as [|x os IH]; cbn; constructor.
    + intros Hin. apply in_map_iff in Hin as [y [E Hy]]. apply in_split in Hy as [q [r ->]].
      assert (same_strings x y = true).
      { apply key_eq; [apply Hvp; left; reflexivity| |symmetry; exact E].
        apply Hvp. right. apply in_or_app. right; left; reflexivity. }
      rewrite (Hn [] x q y r eq_refl) in H. discriminate.
    + apply IH.
      * intros a o1 q o2 r E. apply (Hn (x :: a) o1 q o2 r). rewrite E. reflexivity.
      * intros o Ho. apply Hvp. right; exact Ho.
  - cbn [map collected]. eexists _, _. split; [reflexivity|]. rewrite grouped_perm.
    rewrite filter_all; reflexivity.
  - cbn [map collected]. rewrite app_nil_r, grouped_perm. rewrite filter_all; reflexivity.
Qed.

(** ** Only options with arguments *)
Lemma get_options_args root ps c : built root -> located root ps c ->
  Permutation (get_options ps c false true)
              (filter (fun o => otruthy (o_complete o)) (c_options c)) /\
  Permutation (get_options ps c true true)
              (visible [] (map (fun p => set_options p
                 (filter (fun o => otruthy (o_complete o)) (c_options p))) (c :: ps))).
Proof.
  intros Hb Hl. apply built_wfc in Hb. destruct (located_wfc _ _ _ Hb Hl) as [Hc Hps].
  pose proof (located_chain _ _ _ Hl) as Hch.
  rewrite !(get_options_collected ps c) by exact Hch. split.
  - cbn [map collected]. rewrite app_nil_r, grouped_perm. rewrite filter_all; reflexivity.
  - rewrite visible_eq, map_map. rewrite collected_perm.
    + erewrite map_ext; [reflexivity|]. intros p. destruct p; reflexivity.
    + intros x [].
    + intros l Hin x Hx. apply in_map_iff in Hin as [p [<- Hp]]. apply filter_In in Hx as [Hx _].
      revert x Hx. apply wfc_valid. destruct Hp as [<-|Hp]; [exact Hc|auto].
Qed.

(** ** Positional numbers *)
Lemma fold_max l a : fold_left (fun h p => Z.max h (p_number p)) l a
  = Z.max a (fold_right Z.max 0%Z (map p_number l)) \/ (a < 0)%Z.
Proof.
  revert a; induction l as [|p l IH]; intros a; cbn; [lia|].
  destruct (IH (Z.max a (p_number p))); lia.
Qed.
Lemma highest_eq l : highest_number l = fold_right Z.max 0%Z (map p_number l).
Proof.
  unfold highest_number. destruct (fold_max l 0%Z) as [->|H]; [|lia].
  assert (0 <= fold_right Z.max 0 (map p_number l))%Z by (induction l; cbn; lia). lia.
Qed.

Lemma index_fold l n : (forall p, In p l -> is_some (c_subcommands p) = true) ->
  fold_left (fun n c =>
      let n := (n + highest_number (c_positionals c))%Z in
      if is_some (c_subcommands c) then (n + 1)%Z else n) l n = (n + sum (map consumed l))%Z.
Proof.
  revert n; induction l as [|p l IH]; intros n H; cbn [fold_left map sum fold_right]; [lia|].
  rewrite H by (left; reflexivity). rewrite IH by (intros q Hq; apply H; right; exact Hq).
  fold (sum (map consumed l)). unfold consumed at 2. rewrite highest_eq. lia.
Qed.

Lemma sum_app a b : sum (a ++ b) = (sum a + sum b)%Z.
Proof. unfold sum. induction a as [|x a IH]; cbn; [reflexivity|]. rewrite IH. lia. Qed.
Lemma sum_rev l : sum (rev l) = sum l.
Proof. induction l as [|x l IH]; cbn [rev]; [reflexivity|]. rewrite sum_app, IH. unfold sum. cbn. lia. Qed.

Lemma positional_index_eq root ps c number : located root ps c ->
  positional_index ps number = (number - 1 + sum (map consumed ps))%Z.
Proof.
  intros H. unfold positional_index. rewrite parents_loop_eq, app_nil_r, index_fold.
  - rewrite map_rev, sum_rev. reflexivity.
  - intros p Hp. apply in_rev in Hp. eapply located_subcommands; eassumption.
Qed.

Lemma consumed_pos c : (1 <= consumed c)%Z.
Proof.
  unfold consumed. enough (0 <= fold_right Z.max 0 (map p_number (c_positionals c)))%Z by lia.
  induction (c_positionals c); cbn; lia.
Qed.
Lemma consumed_le c p : In p (c_positionals c) -> (p_number p < consumed c)%Z.
Proof.
  unfold consumed. induction (c_positionals c) as [|q l IH]; cbn; [tauto|].
  intros [->|H]; [lia|]. specialize (IH H). lia.
Qed.
Lemma sum_nonneg l : (0 <= sum (map consumed l))%Z.
Proof.
  unfold sum. induction l as [|c l IH]; cbn; [lia|]. pose proof (consumed_pos c). lia.
Qed.

(** Positionals of an ancestor, its subcommand selector, and those of the subcommand come in
    this order. *)
Lemma positional_order root ps c pre a post q n : built root -> located root ps c ->
  ps = pre ++ a :: post -> In q (c_positionals a) -> (1 <= n)%Z ->
  (0 <= positional_index post (p_number q) < positional_index post (subcommands_number a))%Z /\
  (positional_index post (subcommands_number a) < positional_index ps n)%Z.
Proof.
  intros Hb Hl -> Hq Hn.
  assert (Ha : located root post a).
  { clear -Hl. revert c Hl; induction pre as [|x pre IH]; intros c Hl; inversion Hl; subst.
    - assumption.
    - eapply IH. eassumption. }
  pose proof (located_wfc _ _ _ (built_wfc _ Hb) Ha) as [Hw _].
  assert (1 <= p_number q)%Z.
  { destruct Hw as [a' _ _ Hp _ _]. rewrite Forall_forall in Hp. specialize (Hp q Hq).
    unfold wf_pos, mk_positional in Hp.
    repeat match type of Hp with (if ?b then _ else _) = _ => destruct b eqn:?; [discriminate|] end.
    lia. }
  rewrite !(positional_index_eq _ _ _ _ Ha), (positional_index_eq _ _ _ _ Hl).
  rewrite map_app, sum_app. cbn [map].
  change (sum (consumed a :: map consumed post)) with (consumed a + sum (map consumed post))%Z.
  pose proof (sum_nonneg post). pose proof (sum_nonneg pre). pose proof (consumed_le a q Hq).
  unfold subcommands_number. rewrite highest_eq. unfold consumed in *. lia.
Qed.

(** ** Conflicting options *)
Definition add_new (r : list opt) (o : opt) : list opt :=
  if existsb (opt_eqb o) r then r else r ++ [o].

Lemma existsb_opt x r : existsb (opt_eqb x) r = true <-> In (forget_opt x) (map forget_opt r).
Proof.
  rewrite existsb_exists, in_map_iff. split; intros [y [H1 H2]]; exists y.
  - apply opt_eqb_eq in H2. auto.
  - split; [exact H2|]. apply opt_eqb_eq. auto.
Qed.

Lemma add_new_all l r : NoDup (map forget_opt r) ->
  let r' := fold_left add_new l r in
  NoDup (map forget_opt r') /\
  (forall x, In x r' -> In x r \/ In x l) /\
  (forall x, In x r \/ In x l -> In (forget_opt x) (map forget_opt r')).
Proof.
  revert r; induction l as [|o l IH]; intros r Hn; cbn [fold_left].
  - split; [exact Hn|]. split; [auto|]. intros x [H|[]]. apply in_map. exact H.
  - cbv zeta. destruct (existsb (opt_eqb o) r) eqn:E.
    + replace (add_new r o) with r by (unfold add_new; rewrite E; reflexivity).
      destruct (IH r Hn) as [H1 [H2 H3]]. split; [exact H1|]. split.
      * intros x Hx. destruct (H2 x Hx); [auto|right; right; assumption].
      * intros x [Hx|[<-|Hx]]; [auto| |auto]. apply existsb_opt in E.
        apply in_map_iff in E as [y [Ey Hy]]. rewrite <- Ey. apply H3. auto.
    + replace (add_new r o) with (r ++ [o]) by (unfold add_new; rewrite E; reflexivity).
      assert (Hn' : NoDup (map forget_opt (r ++ [o]))).
      { rewrite map_app. apply NoDup_snoc; [exact Hn|]. rewrite <- existsb_opt. congruence. }
      destruct (IH _ Hn') as [H1 [H2 H3]]. split; [exact H1|]. split.
      * intros x Hx. destruct (H2 x Hx) as [H|H]; [|right; right; exact H].
        apply in_app_or in H as [H|[<-|[]]]; [auto|right; left; reflexivity].
      * intros x [Hx|[<-|Hx]]; apply H3; [left; apply in_or_app; auto|left; apply in_or_app; right; left; reflexivity|auto].
Qed.

Lemma conflict_fold options groups r :
  fold_left (fun r g =>
        fold_left (fun r o =>
            if has_group g o then if existsb (opt_eqb o) r then r else r ++ [o] else r)
          options r) groups r
  = fold_left add_new (flat_map (fun g => filter (has_group g) options) groups) r.
Proof.
  revert r; induction groups as [|g groups IH]; intros r; cbn [fold_left flat_map]; [reflexivity|].
  rewrite fold_left_app, IH. f_equal.
  rewrite <- (fold_left_filter (has_group g) add_new). reflexivity.
Qed.

Lemma remove_first_spec o r : NoDup (map forget_opt r) -> In (forget_opt o) (map forget_opt r) ->
  exists r', remove_first o r = Ok r' /\ forall x, In x r' <-> In x r /\ opt_eqb x o = false.
Proof.
  induction r as [|y r IH]; intros Hn Hin; [destruct Hin|].
  cbn [remove_first]. cbn [map] in Hn. inversion Hn as [|z l Hy Hr]; subst.
  destruct (opt_eqb y o) eqn:E.
  - exists r. split; [reflexivity|]. intros x. split.
    + intros Hx. split; [right; exact Hx|]. apply not_true_iff_false. intros E2.
      apply opt_eqb_eq in E, E2. apply Hy. rewrite E, <- E2. apply in_map. exact Hx.
    + intros [[<-|Hx] E2]; [congruence|exact Hx].
  - destruct Hin as [H|H]; [apply not_true_iff_false in E; exfalso; apply E, opt_eqb_eq; exact H|].
    destruct (IH Hr H) as [r' [-> Hr']]. exists (y :: r'). split; [reflexivity|].
    intros x. cbn. rewrite Hr'. split; [intros [<-|[? ?]]; auto|intros [[?|?] ?]; auto].
Qed.

Lemma share_group_sym a b : share_group a b -> share_group b a.
Proof. intros [g [ga [gb [H1 [H2 [H3 H4]]]]]]. exists g, gb, ga. auto. Qed.

Lemma share_group_eqb a b b' : opt_eqb b b' = true -> share_group a b -> share_group a b'.
Proof.
  intros E [g [ga [gb [H1 [H2 [H3 H4]]]]]]. apply opt_eqb_eq in E.
  unfold forget_opt in E. injection E as _ _ _ _ _ E _ _ _ _ _ _. exists g, ga, gb. rewrite <- E. auto.
Qed.

Lemma conflicting_spec options o : In o options ->
  exists r, get_conflicting_options options o = Ok r /\
    (forall x, In x r -> In x options /\ opt_eqb x o = false /\ share_group o x) /\
    (forall x, In x options -> opt_eqb x o = false -> share_group o x ->
       exists y, In y r /\ opt_eqb y x = true).
Proof.
  intros Ho. unfold get_conflicting_options.
  destruct (o_groups o) as [gs|] eqn:Eg; cbn [otruthy negb].
  2:{ exists []. split; [reflexivity|]. split; [intros x []|].
      intros x _ _ [g [ga [gb [H _]]]]. congruence. }
  destruct gs as [|g0 gs]; cbn [nonempty negb].
  { exists []. split; [reflexivity|]. split; [intros x []|].
    intros x _ _ [g [ga [gb [H [_ [H2 _]]]]]]. rewrite Eg in H. injection H as <-. destruct H2. }
  rewrite conflict_fold. remember (g0 :: gs) as groups eqn:Egs.
  destruct (add_new_all (flat_map (fun g => filter (has_group g) options) groups) [])
    as [H1 [H2 H3]]; [constructor|].
  remember (fold_left add_new _ _) as r eqn:Er. clear Er.
  assert (Hsh : forall x, In x (flat_map (fun g => filter (has_group g) options) groups) <->
                 In x options /\ share_group o x).
  { intros x. rewrite in_flat_map. split.
    - intros [g [Hg Hx]]. apply filter_In in Hx as [Hx Hh]. split; [exact Hx|].
      unfold has_group in Hh. destruct (o_groups x) as [gx|] eqn:E; [|discriminate].
      apply mems_In in Hh. exists g, groups, gx. rewrite Eg. auto.
    - intros [Hx [g [ga [gb [E1 [E2 [H4 H5]]]]]]]. rewrite Eg in E1. injection E1 as <-.
      exists g. split; [exact H4|]. apply filter_In. split; [exact Hx|].
      unfold has_group. rewrite E2. apply mems_In. exact H5. }
  destruct (remove_first_spec o r H1) as [r' [E Hr]].
  { apply H3. right. apply Hsh. split; [exact Ho|]. exists g0, groups, groups.
    rewrite Egs in *. rewrite Eg. repeat split; left; reflexivity. }
  exists r'. split; [exact E|]. split.
  - intros x Hx. apply Hr in Hx as [Hx Hne]. destruct (H2 x Hx) as [[]|Hx2].
    apply Hsh in Hx2 as [? ?]. auto.
  - intros x Hx Hne Hs.
    assert (Hin : In (forget_opt x) (map forget_opt r)) by (apply H3; right; apply Hsh; auto).
    apply in_map_iff in Hin as [y [Ey Hy]]. exists y. split.
    + apply Hr. split; [exact Hy|]. apply not_true_iff_false. intros E2. apply opt_eqb_eq in E2.
      apply not_true_iff_false in Hne. apply Hne. apply opt_eqb_eq. congruence.
    + apply opt_eqb_eq. exact Ey.
Qed.

Lemma opt_eqb_sym a b : opt_eqb a b = opt_eqb b a.
Proof. apply eq_true_iff_eq. rewrite !opt_eqb_eq. split; congruence. Qed.

Lemma conflicting_sym options a b ra rb : In a options -> In b options ->
  get_conflicting_options options a = Ok ra -> get_conflicting_options options b = Ok rb ->
  (existsb (opt_eqb b) ra = true <-> existsb (opt_eqb a) rb = true).
Proof.
  assert (H : forall a b ra rb, In a options -> In b options ->
    get_conflicting_options options a = Ok ra -> get_conflicting_options options b = Ok rb ->
    existsb (opt_eqb b) ra = true -> existsb (opt_eqb a) rb = true).
  { clear. intros a b ra rb Ha Hb Ea Eb H.
    destruct (conflicting_spec options a Ha) as [ra' [Ea' [Ha1 _]]].
    destruct (conflicting_spec options b Hb) as [rb' [Eb' [_ Hb2]]].
    rewrite Ea in Ea'. injection Ea' as <-. rewrite Eb in Eb'. injection Eb' as <-.
    apply existsb_exists in H as [x [Hx E]]. destruct (Ha1 x Hx) as [_ [Hne Hs]].
    assert (Hs2 : share_group b a).
    { apply share_group_sym. apply share_group_eqb with x; [rewrite opt_eqb_sym; exact E|exact Hs]. }
    assert (Hne2 : opt_eqb a b = false).
    { apply not_true_iff_false. intros E2. apply not_true_iff_false in Hne. apply Hne.
      apply opt_eqb_eq. apply opt_eqb_eq in E, E2. congruence. }
    destruct (Hb2 a Ha Hne2 Hs2) as [y [Hy Ey]]. apply existsb_exists. exists y.
    split; [exact Hy|]. rewrite opt_eqb_sym. exact Ey. }
  intros Ha Hb Ea Eb. split; eapply H; eassumption.
Qed.

(** ** Command names and abbreviations *)
Lemma variations_cases p c l : NoDup (map c_prog (subs p)) -> In c (subs p) ->
  get_all_command_variations c (Some p) = Ok l ->
  forall a, In a l -> In a (c_aliases c) \/ a = c_prog c \/
    (forall d, In d (subs p) -> c_prog d <> c_prog c -> ~ exists t, c_prog d = a ++ t).
Proof.
  intros Hn Hc E a Ha. unfold get_all_command_variations in E.
  assert (Hab : forall m, (do a <- get_abbreviations (general_abbreviations m (map c_prog (subs p))) (c_prog c);
            Ok (a ++ c_aliases c)) = Ok l -> In a (c_aliases c) \/ a = c_prog c \/
    (forall d, In d (subs p) -> c_prog d <> c_prog c -> ~ exists t, c_prog d = a ++ t)).
  { clear E. intros m E2.
    destruct (get_abbreviations (general_abbreviations m (map c_prog (subs p))) (c_prog c)) as [e|l1] eqn:E1;
      [discriminate|].
    cbn [bind] in E2. injection E2 as <-. apply in_app_or in Ha as [Ha|Ha]; [|auto].
    apply (proj1 (abbreviations_iff _ _ _ _ E1 _)) in Ha. destruct Ha as [_ [_ [Ha|Ha]]]; [auto|].
    right; right. intros d Hd Hne. apply (Ha (c_prog d)); [|exact Hne]. apply in_map. exact Hd. }
  destruct (c_abbrev_cmds c); [apply (Hab 1 E)| |apply (Hab 1 E)].
  injection E as <-. destruct Ha as [<-|Ha]; auto.
Qed.

Lemma variations_disjoint p c d lc ld a : NoDup (map c_prog (subs p)) ->
  In c (subs p) -> In d (subs p) -> c_prog c <> c_prog d ->
  get_all_command_variations c (Some p) = Ok lc -> get_all_command_variations d (Some p) = Ok ld ->
  In a lc -> In a ld -> In a (c_aliases c) \/ In a (c_aliases d).
Proof.
  intros Hn Hc Hd Hne Ec Ed Hac Had.
  assert (Hpre : forall c l, In c (subs p) -> get_all_command_variations c (Some p) = Ok l -> In a l ->
            In a (c_aliases c) \/ exists t, c_prog c = a ++ t).
  { clear -Hn. intros c l Hc E Ha. unfold get_all_command_variations in E.
    destruct (c_abbrev_cmds c).
    2:{ injection E as <-. destruct Ha as [<-|Ha]; [|auto]. right. exists []. rewrite app_nil_r. reflexivity. }
    all: destruct (get_abbreviations (command_abbreviations (map c_prog (subs p))) (c_prog c))
      as [e|l1] eqn:E1; cbn [bind] in E; [discriminate E|];
      injection E as <-; apply in_app_or in Ha as [Ha|Ha]; [|auto];
      apply (proj1 (abbreviations_iff _ _ _ _ E1 _)) in Ha; destruct Ha as [Ha _]; auto. }
  destruct (variations_cases p c lc Hn Hc Ec a Hac) as [H|[H|H]]; [auto| |].
  - destruct (variations_cases p d ld Hn Hd Ed a Had) as [H2|[H2|H2]]; [auto|congruence|].
    exfalso. apply (H2 c Hc Hne). exists []. rewrite app_nil_r. congruence.
  - destruct (Hpre d ld Hd Ed Had) as [H2|H2]; [auto|]. exfalso. apply (H d Hd); [congruence|exact H2].
Qed.

Lemma variations_total p c : In c (subs p) ->
  exists l, get_all_command_variations c (Some p) = Ok l /\
    (c_prog c <> [] -> In (c_prog c) l) /\ (forall a, In a (c_aliases c) -> In a l).
Proof.
  intros Hc. unfold get_all_command_variations.
  assert (H : exists l, (do a <- get_abbreviations (command_abbreviations (map c_prog (subs p))) (c_prog c);
            Ok (a ++ c_aliases c)) = Ok l /\
    (c_prog c <> [] -> In (c_prog c) l) /\ (forall a, In a (c_aliases c) -> In a l)).
  { destruct (abbreviations_complete 1 (map c_prog (subs p)) (c_prog c) (in_map _ _ _ Hc))
      as [l [E [_ [H _]]]].
    unfold command_abbreviations. rewrite E. cbn [bind]. eexists. split; [reflexivity|]. split.
    - intros Hne. apply in_or_app. left. apply H. destruct (c_prog c); [congruence|cbn; lia].
    - intros a Ha. apply in_or_app. right; exact Ha. }
  destruct (c_abbrev_cmds c); [exact H| |exact H].
  eexists. split; [reflexivity|]. split; [intros _; left; reflexivity|intros a Ha; right; exact Ha].
Qed.

(** ** Options by option strings *)
Lemma options_by_strings_fold options strings r :
  (forall x, In x strings -> exists o, In o options /\ In x (o_strings o)) ->
  exists os, options_by_strings_loop options r strings = Ok (fold_left add_new os r) /\
    (forall o, In o os -> In o options /\ exists x, In x strings /\ In x (o_strings o)) /\
    (forall x, In x strings -> exists o, In o os /\ In x (o_strings o)).
Proof.
  revert r; induction strings as [|x strings IH]; intros r H; cbn [options_by_strings_loop].
  - exists []. split; [reflexivity|]. split; intros ? [].
  - destruct (find (fun o => mems x (o_strings o)) options) as [o|] eqn:E.
    + apply find_some in E as [Ho Hx]. apply mems_In in Hx.
      destruct (IH (add_new r o)) as [os [E2 [H1 H2]]]; [intros y Hy; apply H; right; exact Hy|].
      exists (o :: os). split; [exact E2|]. split.
      * intros o' [<-|Ho']; [split; [exact Ho|exists x; split; [left; reflexivity|exact Hx]]|].
        destruct (H1 o' Ho') as [? [y [? ?]]]. split; [assumption|]. exists y. split; [right|]; assumption.
      * intros y [<-|Hy]; [exists o; split; [left; reflexivity|exact Hx]|].
        destruct (H2 y Hy) as [o' [? ?]]. exists o'. split; [right|]; assumption.
    + exfalso. destruct (H x (or_introl eq_refl)) as [o [Ho Hx]].
      apply (find_none _ _ E) in Ho. apply mems_false in Ho. tauto.
Qed.

Lemma forget_strings a b : forget_opt a = forget_opt b -> o_strings a = o_strings b.
Proof. unfold forget_opt. intros E. injection E. auto. Qed.

Lemma options_by_strings_spec c strings :
  (forall x, In x strings -> exists o, In o (c_options c) /\ In x (o_strings o)) ->
  exists r, get_options_by_option_strings c strings = Ok r /\
    (forall o, In o r -> In o (c_options c) /\ exists x, In x strings /\ In x (o_strings o)) /\
    (forall x, In x strings -> exists o, In o r /\ In x (o_strings o)) /\
    (forall p a q b t, r = p ++ a :: q ++ b :: t -> opt_eqb a b = false).
Proof.
  intros H. destruct (options_by_strings_fold (c_options c) strings [] H) as [os [E [H1 H2]]].
  destruct (add_new_all os []) as [Hn [Hin Hal]]; [constructor|].
  eexists. split; [exact E|]. split; [|split].
  - intros o Ho. destruct (Hin o Ho) as [[]|Ho2]. auto.
  - intros x Hx. destruct (H2 x Hx) as [o [Ho Hxo]]. specialize (Hal o (or_intror Ho)).
    apply in_map_iff in Hal as [o' [E' Ho']]. exists o'. split; [exact Ho'|].
    rewrite (forget_strings _ _ E'). exact Hxo.
  - intros p a q b t Er. rewrite Er in Hn. apply not_true_iff_false. intros Eq.
    apply opt_eqb_eq in Eq. rewrite map_app in Hn. cbn [map] in Hn. apply NoDup_remove_2 in Hn.
    apply Hn. apply in_or_app. right. rewrite map_app. apply in_or_app. right. left. symmetry. exact Eq.
Qed.

Lemma options_by_strings_error c strings e : get_options_by_option_strings c strings = Err e ->
  e = CrazyError (s "Option not found") /\
  exists x, In x strings /\ forall o, In o (c_options c) -> ~ In x (o_strings o).
Proof.
  unfold get_options_by_option_strings. generalize (@nil opt).
  induction strings as [|x strings IH]; intros r H; cbn [options_by_strings_loop] in H; [discriminate|].
  destruct (find (fun o => mems x (o_strings o)) (c_options c)) as [o|] eqn:E.
  - destruct (IH _ H) as [He [y [Hy Hn]]]. split; [exact He|]. exists y. split; [right|]; assumption.
  - injection H as <-. split; [reflexivity|]. exists x. split; [left; reflexivity|].
    intros o Ho. apply (find_none _ _ E) in Ho. apply mems_false in Ho. exact Ho.
Qed.

(** ** Choices *)
Lemma choices_fold l r : 
  fold_left (fun r sub =>
      let r := dset str_eqb (c_prog sub) (c_help sub) r in
      if true
      then fold_left (fun r alias => dset str_eqb alias (c_help sub) r) (c_aliases sub) r
      else r) l r
  = fold_left (fun r kv => dset str_eqb (fst kv) (snd kv) r) (offered l) r.
Proof.
  revert r; induction l as [|c l IH]; intros r; cbn [fold_left]; [reflexivity|].
  unfold offered. cbn [flat_map]. rewrite fold_left_app. cbn [fold_left fst snd].
  rewrite IH. unfold offered. f_equal.
  generalize (dset str_eqb (c_prog c) (c_help c) r). clear.
  induction (c_aliases c) as [|a l IH]; intros r; cbn; [reflexivity|]. apply IH.
Qed.

Lemma fold_dset_new {V} (l r : list (str * V)) : NoDup (map fst (r ++ l)) ->
  fold_left (fun r kv => dset str_eqb (fst kv) (snd kv) r) l r = r ++ l.
Proof.
  revert r; induction l as [|[k v] l IH]; intros r H; cbn [fold_left fst snd]; [rewrite app_nil_r; reflexivity|].
  rewrite dset_new.
  - rewrite IH; rewrite <- app_assoc; [reflexivity|exact H].
  - apply (dmem_false _ str_eqb_spec). rewrite map_app in H. cbn [map fst] in H.
    apply NoDup_remove_2 in H. intros Hk. apply H. apply in_or_app. left; exact Hk.
Qed.

Lemma choices_distinct l : NoDup (map fst (offered l)) -> get_choices l true = offered l.
Proof. intros H. unfold get_choices. rewrite choices_fold. apply (fold_dset_new (offered l) []). exact H. Qed.

Lemma fold_dset_keys {V} (l r : list (str * V)) k :
  In k (map fst (fold_left (fun r kv => dset str_eqb (fst kv) (snd kv) r) l r)) <->
  In k (map fst r) \/ In k (map fst l).
Proof.
  revert r; induction l as [|[k' v] l IH]; intros r; cbn [fold_left fst snd map]; [cbn; tauto|].
  rewrite IH, (dset_In_keys _ str_eqb_spec). cbn. intuition congruence.
Qed.
Lemma fold_dset_NoDup {V} (l r : list (str * V)) : NoDup (map fst r) ->
  NoDup (map fst (fold_left (fun r kv => dset str_eqb (fst kv) (snd kv) r) l r)).
Proof.
  revert r; induction l as [|[k' v] l IH]; intros r H; cbn [fold_left fst snd map]; [exact H|].
  apply IH. apply (dset_NoDup _ str_eqb_spec). exact H.
Qed.

Lemma choices_names l : NoDup (map fst (get_choices l true)) /\
  forall k, In k (map fst (get_choices l true)) <-> In k (map fst (offered l)).
Proof.
  unfold get_choices. rewrite choices_fold. split.
  - apply fold_dset_NoDup. constructor.
  - intros k. rewrite fold_dset_keys. cbn. tauto.
Qed.

(** ** The list of options for the query helpers *)
Lemma query_word_req x : read_query_word (x ++ s "=") = (x, ArgRequired).
Proof. unfold read_query_word. rewrite rev_app_distr. cbn. rewrite rev_involutive. reflexivity. Qed.
Lemma query_word_opt x : read_query_word (x ++ s "=?") = (x, ArgOptional).
Proof. unfold read_query_word. rewrite rev_app_distr. cbn. rewrite rev_involutive. reflexivity. Qed.

Definition plain_word (x : str) : Prop := (forall y, x <> y ++ s "=") /\ (forall y, x <> y ++ s "=?").
Lemma query_word_none x : plain_word x -> read_query_word x = (x, ArgNone).
Proof.
  intros [H1 H2]. unfold read_query_word.
  assert (H1' : forall y, rev x <> EQ :: y).
  { intros y E. apply (H1 (rev y)). rewrite <- (rev_involutive x), E. reflexivity. }
  assert (H2' : forall y, rev x <> QM :: EQ :: y).
  { intros y E. apply (H2 (rev y)). rewrite <- (rev_involutive x), E. cbn. rewrite <- app_assoc. reflexivity. }
  destruct (rev x) as [|a l]; [reflexivity|].
  destruct (N.eq_dec a EQ) as [->|Ha]; [exfalso; apply (H1' l); reflexivity|].
  destruct (N.eq_dec a QM) as [->|Hq].
  - destruct l as [|b l]; [reflexivity|].
    destruct (N.eq_dec b EQ) as [->|Hb]; [exfalso; apply (H2' l); reflexivity|].
    destruct b as [|[[[[[[]|[]|]|[[]|[]|]|]|[[[]|[]|]|[[]|[]|]|]|]|[[[[]|[]|]|[[]|[]|]|]|[[[]|[]|]|[[]|[]|]|]|]|]|
       [[[[[]|[]|]|[[]|[]|]|]|[[[]|[]|]|[[]|[]|]|]|]|[[[[]|[]|]|[[]|[]|]|]|[[[]|[]|]|[[]|[]|]|]|]|]|]];
      try reflexivity; congruence.
  - destruct a as [|[[[[[[]|[]|]|[[]|[]|]|]|[[[]|[]|]|[[]|[]|]|]|]|[[[[]|[]|]|[[]|[]|]|]|[[[]|[]|]|[[]|[]|]|]|]|]|
       [[[[[]|[]|]|[[]|[]|]|]|[[[]|[]|]|[[]|[]|]|]|]|[[[[]|[]|]|[[]|[]|]|]|[[[]|[]|]|[[]|[]|]|]|]|]|]];
      try reflexivity; congruence.
Qed.

Lemma query_words ps c root wp : built root -> located root ps c ->
  (forall o x, In o (get_options ps c wp false) -> In x (o_strings o) -> plain_word x) ->
  get_options ps c wp false <> [] ->
  map read_query_word (split_c SP (get_query_option_strings ps c wp))
  = flat_map (fun o => map (fun x => (x, arg_kind o)) (o_strings o)) (get_options ps c wp false).
Proof.
  intros Hb Hl Hp Hne.
  assert (Hv : forall o, In o (get_options ps c wp false) -> valid_strings o).
  { intros o Ho. pose proof (get_options_visible root ps c Hb Hl) as [H1 [_ [_ H4]]].
    apply built_wfc in Hb. destruct (located_wfc _ _ _ Hb Hl) as [Hc Hps].
    destruct wp.
    - apply (Permutation_in _ H1) in Ho.
      assert (Hvis : forall chain seen, In o (visible seen chain) -> exists p, In p chain /\ In o (c_options p)).
      { clear. induction chain as [|p chain IH]; intros seen H; cbn in H; [destruct H|].
        apply in_app_or in H as [H|H].
        - apply filter_In in H as [H _]. exists p. split; [left; reflexivity|exact H].
        - destruct (IH _ H) as [q [? ?]]. exists q. split; [right|]; assumption. }
      destruct (Hvis _ _ Ho) as [p [Hin Hop]]. apply (wfc_valid p); [|exact Hop].
      destruct Hin as [<-|Hin]; auto.
    - apply (Permutation_in _ H4) in Ho. apply (wfc_valid c); assumption. }
  unfold get_query_option_strings.
  remember (get_options ps c wp false) as os eqn:Eos. clear Eos.
  rewrite split_join_c.
  - clear Hne. induction os as [|o os IH]; cbn [flat_map map]; [reflexivity|].
    rewrite map_app, IH by (intros; first [eapply Hp; [right; eassumption|eassumption]
                                          |apply Hv; right; assumption]).
    f_equal. unfold has_required_arg, has_optional_arg, arg_kind.
    specialize (Hp o). destruct (o_complete o) as [co|]; cbn [is_some andb].
    + destruct (o_optional_arg o); cbn [negb andb]; rewrite map_map; apply map_ext; intros x.
      * apply query_word_opt.
      * apply query_word_req.
    + apply map_ext_in. intros x Hx. apply query_word_none. apply Hp; [left; reflexivity|exact Hx].
  - destruct os as [|o os]; [congruence|]. intros E. cbn [flat_map] in E.
    apply app_eq_nil in E as [E _]. destruct (Hv o (or_introl eq_refl)) as [Hn _].
    destruct (o_strings o) as [|x l]; [congruence|].
    destruct (has_required_arg o); [discriminate|]. destruct (has_optional_arg o); discriminate.
  - intros w Hw. apply in_flat_map in Hw as [o [Ho Hw]]. destruct (Hv o Ho) as [_ Hval].
    assert (Hn : forall x t, In x (o_strings o) -> ~ In SP t -> ~ In SP (x ++ t)).
    { intros x t Hx Ht Hin. apply in_app_or in Hin as [Hin|Hin]; [|tauto].
      apply (valid_no_space x); auto. }
    destruct (has_required_arg o); [|destruct (has_optional_arg o)].
    + apply in_map_iff in Hw as [x [<- Hx]]. apply Hn; [exact Hx|]. cbn. intuition discriminate.
    + apply in_map_iff in Hw as [x [<- Hx]]. apply Hn; [exact Hx|]. cbn. intuition discriminate.
    + apply valid_no_space. auto.
Qed.

(** ** Whatever [copy] returns has been built by the API. *)
Lemma fold_option_built os : forall c c', built c -> fold_res add_option os c = Ok c' -> built c'.
Proof.
  induction os as [|o os IH]; intros c c' Hb E; cbn [fold_res] in E; [congruence|].
  destruct (add_option c o) as [e|c1] eqn:E1; [discriminate|]. cbn [bind] in E.
  apply (IH c1); [|exact E]. eapply built_option; eassumption.
Qed.
Lemma fold_positional_built os : forall c c', built c -> fold_res add_positional os c = Ok c' -> built c'.
Proof.
  induction os as [|o os IH]; intros c c' Hb E; cbn [fold_res] in E; [congruence|].
  destruct (add_positional c o) as [e|c1] eqn:E1; [discriminate|]. cbn [bind] in E.
  apply (IH c1); [|exact E]. eapply built_positional; eassumption.
Qed.

Lemma set_set_subcommands c x y : set_subcommands (set_subcommands c x) y = set_subcommands c y.
Proof. destruct c; reflexivity. Qed.

Lemma copy_result_built c : forall c', copy c = Ok c' -> built c'.
Proof.
  induction c as [prog help aliases wraps abc abo inh options positionals subcommands IH]
    using cmd_ind'.
  intros c' E. cbn [copy] in E.
  destruct (mk_commandline prog help aliases wraps abc abo inh) as [e|c0] eqn:E0; [discriminate|].
  cbn [bind] in E. destruct (fold_res add_option options c0) as [e|c1] eqn:E1; [discriminate|].
  cbn [bind] in E. destruct (fold_res add_positional positionals c1) as [e|c2] eqn:E2; [discriminate|].
  cbn [bind] in E. apply built_new in E0. apply (fold_option_built _ _ _ E0) in E1.
  apply (fold_positional_built _ _ _ E1) in E2.
  destruct subcommands as [l|]; [|congruence].
  destruct (add_subcommands c2) as [e|c3] eqn:E3; [discriminate|]. cbn [bind] in E.
  pose proof (built_subcommands _ _ E2 E3) as Hb3.
  assert (Hs3 : c_subcommands c3 = Some []).
  { unfold add_subcommands in E3. destruct (c_subcommands c2); [discriminate|].
    injection E3 as <-. destruct c2; reflexivity. }
  specialize (IH l eq_refl).
  match type of E with bind ?x _ = _ => destruct x as [e|l'] eqn:E4; [discriminate|] end.
  cbn [bind] in E. injection E as <-.
  assert (HH : forall l2 acc l', Forall (fun c => forall c', copy c = Ok c' -> built c') l2 ->
            built (set_subcommands c3 (Some acc)) ->
            (fix go (acc : list cmd) (l : list cmd) : res (list cmd) :=
                  match l with
                  | [] => Ok acc
                  | x :: l' => do y <- copy x; do acc' <- add_commandline_object acc y; go acc' l'
                  end) acc l2 = Ok l' -> built (set_subcommands c3 (Some l'))).
  { clear. induction l2 as [|x l2 IHl]; intros acc l' Hc Hb E; [congruence|].
    inversion Hc as [|x' l3 Hx Hl]; subst.
    destruct (copy x) as [e|y] eqn:Ex; [discriminate|]. cbn [bind] in E.
    destruct (add_commandline_object acc y) as [e|acc'] eqn:Ea; [discriminate|]. cbn [bind] in E.
    apply (IHl acc' l' Hl); [|exact E]. rewrite <- (set_set_subcommands c3 (Some acc)).
    apply (built_sub _ acc y); [exact Hb|destruct c3; reflexivity|apply Hx; reflexivity|exact Ea]. }
  apply (HH l [] l' IH); [|exact E4].
  destruct c3. cbn in *. rewrite <- Hs3. exact Hb3.
Qed.

Lemma built_iff_copy c : built c <-> copy c = Ok c.
Proof. split; [apply copy_built|apply copy_result_built]. Qed.
