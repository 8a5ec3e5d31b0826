(** * The code of the completion function of a command, read by zsh. *)
From Verif Require Import Base Dict PyStr Algo Value StrUtils Shell Cli CliProofs CliMore ParserPaths SpecCli When Helpers ZshUtils SpecParser SpecOffered
  SpecZsh SpecZshFunction ZshReading ZshSpecs Zsh.
From Coq Require Import Permutation.
Open Scope list_scope.

(** ** Options with their commands *)

Definition grab (e : str * (cmd * list opt)) : list (cmd * opt) := map (fun o => (fst (snd e), o)) (snd (snd e)).
Lemma grab_wrap c g : flat_map grab (wrap c g) = map (pair c) (concat (map snd g)).
Proof.
  induction g as [| [k os] g IH]; cbn; [reflexivity |]. fold (wrap c g). rewrite IH, map_app. reflexivity.
Qed.
Fixpoint collected2 (seen : list opt) (chain : list cmd) : list (cmd * opt) :=
  match chain with
  | [] => []
  | c :: l => map (pair c) (grouped (filter (fun o => negb (mems (option_strings_key o) (map option_strings_key seen))) (c_options c)))
              ++ collected2 (seen ++ c_options c) l
  end.
Lemma getter_chain2 chain d seen : increasing chain ->
  (forall k c' os, In (k, (c', os)) d -> forall c, In c chain -> size c' < size c) ->
  (forall k, In k (keys d) <-> In k (map option_strings_key seen)) ->
  flat_map grab (fold_left (fun d c => fold_left (fun d o => getter_add d o c) (c_options c) d) chain d)
  = flat_map grab d ++ collected2 seen chain.
Proof.
  revert d seen; induction chain as [| c chain IH]; intros d seen Hi Hd Hk.
  - cbn. rewrite app_nil_r. reflexivity.
  - cbn [fold_left collected2]. destruct Hi as [Hc Hi].
    pose proof (getter_fold c d (c_options c) []) as E. cbn [wrap map] in E. rewrite app_nil_r in E. rewrite E.
    2:{ intros k c' os Hin. apply not_true_iff_false. intros He. apply cmd_eqb_size in He.
        specialize (Hd k c' os Hin c (or_introl eq_refl)). lia. }
    fold (group_by str_eqb (filter (fun o => negb (dmem str_eqb (option_strings_key o) d)) (c_options c)) option_strings_key).
    assert (Ef : filter (fun o => negb (dmem str_eqb (option_strings_key o) d)) (c_options c)
               = filter (fun o => negb (mems (option_strings_key o) (map option_strings_key seen))) (c_options c)).
    { apply filter_ext. intros o. f_equal. apply eq_true_iff_eq. rewrite (dmem_In _ str_eqb_spec), mems_In. apply Hk. }
    rewrite Ef. rewrite (IH _ (seen ++ c_options c)).
    + rewrite flat_map_app, grab_wrap, <- app_assoc. reflexivity.
    + exact Hi.
    + intros k c' os Hin p Hp. apply in_app_or in Hin as [Hin | Hin].
      * apply (Hd k c' os Hin). right; exact Hp.
      * unfold wrap in Hin. apply in_map_iff in Hin as [[k2 os2] [E2 _]]. injection E2 as _ <- _. apply Hc. exact Hp.
    + intros k. unfold keys. rewrite map_app, in_app_iff. fold (keys d).
      fold (keys (wrap c (group_by str_eqb (filter (fun o => negb (mems (option_strings_key o) (map option_strings_key seen))) (c_options c)) option_strings_key))).
      rewrite keys_wrap, group_keys, Hk, map_app, in_app_iff.
      split; intros [H | H]; auto.
      * right. apply in_map_iff in H as [o [<- Ho]]. apply filter_In in Ho as [Ho _]. apply in_map. exact Ho.
      * destruct (mems k (map option_strings_key seen)) eqn:Em.
        -- left. apply mems_In. exact Em.
        -- right. apply in_map_iff in H as [o [<- Ho]]. apply in_map. apply filter_In. rewrite Em. auto.
Qed.
Lemma collected2_In chain : forall seen owner o, (forall x, In x seen -> valid_strings x) ->
  (forall c, In c chain -> forall x, In x (c_options c) -> valid_strings x) ->
  In (owner, o) (collected2 seen chain) <->
  (option_of chain owner o /\ forall p, In p seen -> same_strings o p = false) .
Proof.
  induction chain as [| c chain IH]; intros seen owner o Hs Hv.
  - cbn. split; [tauto |]. intros [(near & far & E & _) _]. destruct near; discriminate.
  - cbn [collected2]. rewrite in_app_iff, (IH (seen ++ c_options c)).
    2:{ intros x Hx. apply in_app_or in Hx as [Hx | Hx]; [auto |]. eapply Hv; [left; reflexivity | exact Hx]. }
    2:{ intros c' Hc'. apply Hv. now right. }
    assert (Hg : In (owner, o) (map (pair c) (grouped (filter (fun o => negb (mems (option_strings_key o) (map option_strings_key seen))) (c_options c)))) <->
                 owner = c /\ In o (c_options c) /\ forall p, In p seen -> same_strings o p = false).
    { rewrite in_map_iff. split.
      - intros (o' & E & Ho). apply (Permutation_in _ (grouped_perm _)) in Ho. rewrite filter_shadow in Ho by (auto; apply Hv; now left).
        apply filter_In in Ho as [Ho Hn]. injection E as <- <-. split; [reflexivity |]. split; [exact Ho |]. intros p Hp.
        apply negb_true_iff in Hn. destruct (same_strings o' p) eqn:Es; [| reflexivity]. rewrite <- Hn. symmetry. apply existsb_exists. exists p. auto.
      - intros (-> & Ho & Hn). exists o. split; [reflexivity |]. apply (Permutation_in _ (Permutation_sym (grouped_perm _))).
        rewrite filter_shadow by (auto; apply Hv; now left). apply filter_In. split; [exact Ho |]. apply negb_true_iff.
        destruct (existsb (same_strings o) seen) eqn:Es; [| reflexivity]. apply existsb_exists in Es as (p & Hp & Es). rewrite Hn in Es by exact Hp. discriminate. }
    rewrite Hg. split.
    + intros [(-> & Ho & Hn) | [(near & far & -> & Ho & Hn) Hs']].
      * split; [| exact Hn]. exists [], chain. split; [reflexivity |]. split; [exact Ho |]. intros d p [].
      * split.
        -- exists (c :: near), far. split; [reflexivity |]. split; [exact Ho |]. intros d p [<- | Hd] Hp; [| eauto].
           apply Hs'. apply in_or_app. now right.
        -- intros p Hp. apply Hs'. apply in_or_app. now left.
    + intros [(near & far & E & Ho & Hn) Hs']. destruct near as [| c' near]; injection E as <- E.
      * left. auto.
      * right. split; [exists near, far; subst chain; split; [reflexivity |]; split; [exact Ho |]; intros d p Hd; apply Hn; now right |].
        intros p Hp. apply in_app_or in Hp as [Hp | Hp]; [auto |]. eapply Hn; [left; reflexivity | exact Hp].
Qed.
Lemma options_with_owner_In root ps c wp owner o : built root -> located root ps c ->
  In (owner, o) (options_with_owner ps c wp) <-> option_of (if wp then c :: ps else [c]) owner o.
Proof.
  intros Hb Hl. apply built_wfc in Hb. destruct (located_wfc _ _ _ Hb Hl) as [Hc Hps].
  pose proof (located_chain _ _ _ Hl) as Hch. unfold options_with_owner. fold grab.
  replace (rev (if wp then get_parents ps c true else [c])) with (if wp then c :: ps else [c])
    by (destruct wp; [rewrite rev_get_parents; reflexivity | reflexivity]).
  change (flat_map (fun e : str * (cmd * list opt) => map (fun o0 => (fst (snd e), o0)) (snd (snd e)))) with (flat_map grab).
  rewrite (getter_chain2 _ [] []); [| | intros k c' os [] | reflexivity].
  - cbn [flat_map app]. rewrite collected2_In; [| intros x [] |].
    + split; [tauto |]. intros H. split; [exact H | intros p []].
    + intros d Hd. assert (Hw : wfc d) by (destruct wp; cbn in Hd; destruct Hd as [<- | Hd]; auto; contradiction). now apply wfc_valid.
  - destruct wp; [apply chain_increasing; exact Hch |]. cbn. split; [intros p [] | exact I].
Qed.

Lemma conflicting_strings_In owner o : In o (c_options owner) ->
  exists l, get_conflicting_option_strings owner o = Ok l /\ forall y, In y l <-> conflicts_with owner o y.
Proof.
  intros Ho. destruct (conflicting_spec (c_options owner) o Ho) as (r & E & H1 & H2).
  unfold get_conflicting_option_strings. rewrite E. cbn [bind]. exists (flat_map o_strings r). split; [reflexivity |].
  intros y. rewrite in_flat_map. split.
  - intros (p & Hp & Hy). destruct (H1 p Hp) as (A & B & C). exists p. auto.
  - intros (p & A & B & C & D). destruct (H2 p A B C) as (q & Hq & Eq). exists q. split; [exact Hq |].
    apply opt_eqb_eq in Eq. unfold forget_opt in Eq. injection Eq as Es. now rewrite Es.
Qed.

(** ** The texts as elements of an array *)

Section Function.
Variable option_action : place -> opt -> str.
Variable positional_action : place -> pos -> str.
Variable command_action : place -> str.
Variable here : place.
Notation says := (says (option_action here) positional_action command_action).

Definition means (i : item) (w : str) : Prop := exists z, read_spec w = Some z /\ says i z.
Definition element (text : str) (is : list item) : Prop :=
  forall rest, exists ms words, zread ZPlain None (text ++ rest) = zread ZPlain (Some ms) rest /\
    expand_braces [] ms = Some words /\ Forall2 means is words.

Lemma array_one text is : element text is -> exists words, zsh_array text = Some words /\ Forall2 means is words.
Proof.
  intros H. destruct (H []) as (ms & words & E & Eb & F). exists words. split; [| exact F].
  unfold zsh_array. rewrite app_nil_r in E. rewrite E. cbn [zread zemit option_map expand_all]. rewrite Eb, app_nil_r. reflexivity.
Qed.
Lemma array_lines texts iss : Forall2 element texts iss ->
  exists words, zsh_array (flat_map (fun t => s "  " ++ t ++ [LF]) texts) = Some words /\ Forall2 means (concat iss) words.
Proof.
  induction 1 as [| t is texts iss Ht _ (words & E & F)]; [exists []; split; [reflexivity | constructor] |].
  cbn [flat_map concat]. set (r := flat_map _ texts) in *.
  destruct (Ht (LF :: r)) as (ms & ws & E1 & Eb & F1). exists (ws ++ words). split; [| now apply Forall2_app].
  unfold zsh_array in E |- *. replace ((s "  " ++ t ++ [LF]) ++ r) with (SP :: SP :: t ++ LF :: r) by (rewrite <- !app_assoc; reflexivity).
  change (zread ZPlain None (SP :: SP :: t ++ LF :: r)) with (zread ZPlain None (t ++ LF :: r)). rewrite E1.
  change (zread ZPlain (Some ms) (LF :: r)) with (option_map (cons ms) (zread ZPlain None r)).
  destruct (zread ZPlain None r) as [l |]; [| discriminate]. cbn [option_map expand_all]. rewrite Eb.
  destruct (expand_all l); [| discriminate]. injection E as ->. reflexivity.
Qed.

(** ** The arguments of the function *)

Definition good_arg (a : zarg) (is : list item) : Prop :=
  element (zg_spec a) is /\ is <> [] /\ forall i, In i is -> when_of i = zg_when a.

Lemma option_arg owner o : In o (c_options owner) -> valid_option o -> plain_command owner ->
  plain_texts (option_action here o) ->
  exists a, complete_option option_action here owner o = Ok a /\ good_arg a (map (ItemOption owner o) (o_strings o)).
Proof.
  intros Ho Hv Hp [Ha Hs]. destruct (conflicting_strings_In owner o Ho) as (l & El & Hl).
  destruct (pl_options _ Hp o Ho) as (P1 & P2 & P3).
  destruct (option_spec_read o l (option_action here o)) as (text & Et & Hr); auto.
  - apply Hv.
  - intros x [Hx | Hx]; [eapply pl_strings; eauto |]. apply Hl in Hx as (p & Hp1 & _ & _ & Hx). eapply pl_strings; eauto.
  - unfold complete_option. rewrite El. cbn [bind]. unfold option_spec, xtrue in Et. rewrite Et. cbn [bind].
    eexists. split; [reflexivity |]. split; [| split; [destruct Hv as [Hv _]; destruct (o_strings o); [congruence | discriminate] |]].
    + intros rest. destruct (Hr rest) as (ms & E & words & Eb & F). exists ms, words. split; [exact E |]. split; [exact Eb |].
      clear -F Hl. induction F as [| x w xs ws (z & Ez & Hz) _ IH]; cbn [map]; constructor; [| exact IH].
      exists (SpecOption z). split; [exact Ez |]. exists l. auto.
    + intros i Hi. apply in_map_iff in Hi as (x & <- & _). reflexivity.
Qed.

Lemma element_argument text i w z : (forall rest, exists ms w, zread ZPlain None (text ++ rest) = zread ZPlain (Some ms) rest /\ expand_braces [] ms = Some [w] /\
      read_spec w = Some (SpecArgument z)) -> w = z -> says i (SpecArgument w) -> element text [i].
Proof.
  intros H -> Hs rest. destruct (H rest) as (ms & w & E & Eb & Er). exists ms, [w]. split; [exact E |]. split; [exact Eb |].
  constructor; [| constructor]. exists (SpecArgument z). auto.
Qed.
Lemma taken_nonneg ps : (0 <= taken ps)%Z.
Proof. apply sum_nonneg. Qed.
Lemma positional_text_message q : positional_text q = message_of q.
Proof. unfold positional_text, message_of. destruct (p_help q) as [[| ? ?] |]; destruct (p_metavar q) as [[| ? ?] |]; reflexivity. Qed.
Lemma positional_arg root p q : located root (fst p) (snd p) -> (1 <= p_number q)%Z -> tame_text (p_help q) -> tame_text (p_metavar q) ->
  plain_texts (positional_action p q) ->
  exists a, complete_positional positional_action p q = Ok a /\ good_arg a [ItemPositional p q].
Proof.
  intros Hl Hn Hh Hm [Ha Hs]. unfold complete_positional. rewrite (positional_index_eq _ _ _ _ Hl). fold (taken (fst p)).
  pose proof (taken_nonneg (fst p)) as Ht.
  destruct (positional_spec_read (p_number q - 1 + taken (fst p) + 1) (p_repeatable q) (positional_text q) (positional_action p q)) as (text & E & Hr); auto.
  - lia.
  - unfold positional_text. destruct (p_help q) as [[| ? ?] |]; destruct (p_metavar q) as [[| ? ?] |]; discriminate.
  - unfold positional_text. destruct (p_help q) as [[| ? ?] |]; destruct (p_metavar q) as [[| ? ?] |]; try exact Hh; try exact Hm; reflexivity.
  - rewrite E. cbn [bind]. eexists. split; [reflexivity |]. split; [| split; [discriminate | intros i [<- | []]; reflexivity]].
    eapply element_argument; [exact Hr | reflexivity |]. cbn [SpecZshFunction.says argument_for za_number za_message za_action].
    rewrite positional_text_message. split; [| auto]. destruct (p_repeatable q); [reflexivity |]. do 2 f_equal. lia.
Qed.
Lemma show_nat_safe n c : In c (show_nat n) -> is_digit c = true.
Proof. pose proof (show_nat_digits n) as H. rewrite forallb_forall in H. apply H. Qed.
Lemma tame_free chars x : ~ In BS x -> tame chars x = true.
Proof.
  induction x as [| c x IH]; intros H; [reflexivity |]. cbn [tame]. destruct (N.eqb_spec c BS) as [-> | _]; [exfalso; apply H; now left |].
  apply IH. intros Hi. apply H. now right.
Qed.
Lemma commands_arg root n p : located root (fst p) (snd p) -> plain_texts (command_action p) ->
  exists a, complete_subcommands command_action n p = Ok a /\ good_arg a [ItemCommands p].
Proof.
  intros Hl [Ha Hs]. unfold complete_subcommands. rewrite (positional_index_eq _ _ _ _ Hl). fold (taken (fst p)).
  unfold subcommands_number. rewrite highest_eq.
  pose proof (taken_nonneg (fst p)) as Ht. pose proof (consumed_pos (snd p)) as Hc. unfold consumed in Hc.
  set (number := (_ + 1)%Z).
  destruct (positional_spec_read number false (s "command" ++ show_nat (S n)) (command_action p)) as (text & E & Hr); auto.
  - unfold number. lia.
  - discriminate.
  - apply tame_free. intros Hi. apply in_app_or in Hi as [Hi | Hi]; [vm_compute in Hi; intuition discriminate |].
    apply show_nat_safe in Hi. discriminate.
  - rewrite E. cbn [bind]. eexists. split; [reflexivity |]. split; [| split; [discriminate | intros i [<- | []]; reflexivity]].
    eapply element_argument; [exact Hr | reflexivity |]. cbn [SpecZshFunction.says argument_for za_number za_message za_action].
    split; [| auto]. do 2 f_equal. unfold number, taken. cbn [map sum fold_right]. fold (sum (map consumed (fst p))).
    unfold consumed at 2. unfold taken. lia.
Qed.

Lemma map_res_good {A} (f : A -> res zarg) (g : A -> list item) (l : list A) :
  (forall x, In x l -> exists a, f x = Ok a /\ good_arg a (g x)) ->
  exists args, map_res f l = Ok args /\ Forall2 good_arg args (map g l).
Proof.
  induction l as [| x l IH]; intros H; [exists []; split; [reflexivity | constructor] |].
  destruct (H x (or_introl eq_refl)) as (a & Ea & Ha). destruct IH as (args & E & F); [intros y Hy; apply H; now right |].
  exists (a :: args). cbn [map_res map]. rewrite Ea. cbn [bind]. rewrite E. cbn [bind]. split; [reflexivity | now constructor].
Qed.

Definition place_items (p : place) : list (list item) :=
  map (fun q => [ItemPositional p q]) (c_positionals (snd p)) ++ (if is_some (c_subcommands (snd p)) then [[ItemCommands p]] else []).
Lemma arguments_good root l : forall n,
  (forall p, In p l -> located root (fst p) (snd p) /\ plain_command (snd p) /\ (forall q, In q (c_positionals (snd p)) -> valid_positional q) /\
    (forall q, In q (c_positionals (snd p)) -> plain_texts (positional_action p q)) /\ (c_subcommands (snd p) <> None -> plain_texts (command_action p))) ->
  exists args, complete_arguments positional_action command_action n l = Ok args /\ Forall2 good_arg args (flat_map place_items l).
Proof.
  induction l as [| p l IH]; intros n H; [exists []; split; [reflexivity | constructor] |]. cbn [complete_arguments flat_map].
  destruct (H p (or_introl eq_refl)) as (Hl & Hp & Hv & Hq & Hc).
  destruct (map_res_good (complete_positional positional_action p) (fun q => [ItemPositional p q]) (c_positionals (snd p))) as (own & E1 & F1).
  { intros q Hiq. destruct (pl_positionals _ Hp q Hiq). eapply positional_arg; eauto. now apply Hv. }
  rewrite E1. cbn [bind].
  assert (Hs : exists sub, (if is_some (c_subcommands (snd p)) then do a <- complete_subcommands command_action n p; Ok [a] else Ok []) = Ok sub /\
     Forall2 good_arg sub (if is_some (c_subcommands (snd p)) then [[ItemCommands p]] else [])).
  { destruct (c_subcommands (snd p)) as [subs |]; cbn [is_some]; [| exists []; split; [reflexivity | constructor]].
    destruct (commands_arg root n p Hl) as (a & Ea & Ga); [apply Hc; discriminate |]. rewrite Ea. cbn [bind]. exists [a]. split; [reflexivity |]. constructor; [exact Ga | constructor]. }
  destruct Hs as (sub & E2 & F2). rewrite E2. cbn [bind].
  destruct (IH (if is_some (c_subcommands (snd p)) then S n else n)) as (r & E3 & F3); [intros p' Hp'; apply H; now right |].
  rewrite E3. cbn [bind]. eexists. split; [reflexivity |]. unfold place_items. rewrite <- app_assoc. repeat apply Forall2_app; assumption.
Qed.
Lemma parent_places_In ps p : In p (parent_places ps) <-> In p (ancestors ps).
Proof.
  induction ps as [| d r IH]; [reflexivity |]. cbn [parent_places ancestors]. rewrite in_app_iff, IH. cbn. tauto.
Qed.

Definition function_items (ps : list cmd) (c : cmd) : list (list item) :=
  map (fun x => map (ItemOption (fst x) (snd x)) (o_strings (snd x))) (options_with_owner ps c (negb (xbool_eqb (c_inherit c) XFalse)))
  ++ flat_map place_items (parent_places ps ++ [(ps, c)]).
Lemma function_items_In root ps c i : built root -> located root ps c -> In i (concat (function_items ps c)) <-> has_item ps c i.
Proof.
  intros Hb Hl. unfold function_items. rewrite concat_app, in_app_iff.
  assert (H1 : In i (concat (map (fun x => map (ItemOption (fst x) (snd x)) (o_strings (snd x))) (options_with_owner ps c (negb (xbool_eqb (c_inherit c) XFalse))))) <->
               exists owner o x, i = ItemOption owner o x /\ option_of (if xbool_eqb (c_inherit c) XFalse then [c] else c :: ps) owner o /\ In x (o_strings o)).
  { rewrite <- flat_map_concat_map, in_flat_map. split.
    - intros ([owner o] & Hx & Hi). apply in_map_iff in Hi as (x & <- & Hi). apply (options_with_owner_In root) in Hx; auto.
      exists owner, o, x. split; [reflexivity |]. split; [| exact Hi]. now destruct (xbool_eqb (c_inherit c) XFalse).
    - intros (owner & o & x & -> & Ho & Hx). exists (owner, o). split; [| now apply (in_map (ItemOption owner o))].
      apply (options_with_owner_In root); auto. now destruct (xbool_eqb (c_inherit c) XFalse). }
  assert (H2 : In i (concat (flat_map place_items (parent_places ps ++ [(ps, c)]))) <->
     exists p, (p = (ps, c) \/ In p (ancestors ps)) /\
       ((exists q, i = ItemPositional p q /\ In q (c_positionals (snd p))) \/ (i = ItemCommands p /\ c_subcommands (snd p) <> None))).
  { rewrite in_concat. split.
    - intros (is & Hi & Hi2). apply in_flat_map in Hi as (p & Hp & Hi). exists p. split.
      + apply in_app_or in Hp as [Hp | [<- | []]]; [right; now apply parent_places_In | now left].
      + unfold place_items in Hi. apply in_app_or in Hi as [Hi | Hi].
        * apply in_map_iff in Hi as (q & <- & Hq). destruct Hi2 as [<- | []]. left. exists q. auto.
        * destruct (c_subcommands (snd p)); cbn [is_some] in Hi; [| destruct Hi]. destruct Hi as [<- | []]. destruct Hi2 as [<- | []]. right. split; [reflexivity | discriminate].
    - intros (p & Hp & Hi).
      assert (Hp' : In p (parent_places ps ++ [(ps, c)])) by (apply in_or_app; destruct Hp as [-> | Hp]; [right; now left | left; now apply parent_places_In]).
      destruct Hi as [(q & -> & Hq) | (-> & Hs)].
      + exists [ItemPositional p q]. split; [| now left]. apply in_flat_map. exists p. split; [exact Hp' |]. unfold place_items. apply in_or_app.
        left. apply in_map_iff. exists q. auto.
      + exists [ItemCommands p]. split; [| now left]. apply in_flat_map. exists p. split; [exact Hp' |]. unfold place_items. apply in_or_app.
        right. destruct (c_subcommands (snd p)); [now left | congruence]. }
  rewrite H1, H2. clear. unfold has_item. split.
  - intros [(owner & o & x & -> & H) | (p & Hp & [(q & -> & Hq) | [-> Hs]])]; auto.
  - destruct i as [owner o x | p q | p].
    + intros H. left. exists owner, o, x. auto.
    + intros [H Hq]. right. exists p. split; [exact H |]. left. exists q. auto.
    + intros [H Hq]. right. exists p. split; [exact H |]. right. auto.
Qed.

Lemma chain_place ps d : In d ps -> exists qs, In (qs, d) (ancestors ps).
Proof. induction ps as [| p r IH]; intros H; [destruct H |]. cbn [ancestors]. destruct H as [-> | H]; [exists r; now left |]. destruct (IH H) as (qs & Hq). exists qs. now right. Qed.
Lemma ancestors_snd ps p : In p (ancestors ps) -> In (snd p) ps.
Proof. induction ps as [| d r IH]; cbn [ancestors]; intros H; [destruct H |]. destruct H as [<- | H]; [now left | right; auto]. Qed.

(** ** The code *)

Section Code.
Variable ere : str -> bool.
Variable e : zenv.
Variable holds : str -> bool.

Definition active (w : option str) : bool :=
  match w with
  | None => false
  | Some w => match zsh_when ere e w with Ok k => holds k | Err _ => false end
  end.
Lemma without_when_good args iss : Forall2 good_arg args iss ->
  exists iss1, Forall2 element (map zg_spec (without_when args)) iss1 /\
    forall i, In i (concat iss1) <-> In i (concat iss) /\ when_of i = None.
Proof.
  induction 1 as [| a is args iss (Ga & Gn & Gw) _ (iss1 & F & Hi)]; [exists []; split; [constructor | cbn; tauto] |].
  cbn [without_when filter]. destruct (zg_when a) as [w |]; cbn [is_some negb].
  - exists iss1. split; [exact F |]. intros i. rewrite Hi. cbn [concat]. rewrite in_app_iff. split; [tauto |].
    intros [[H | H] Hn]; [| tauto]. rewrite (Gw i H) in Hn. discriminate.
  - exists (is :: iss1). split; [constructor; assumption |]. intros i. cbn [concat]. rewrite !in_app_iff, Hi. split; [| tauto].
    intros [H | H]; [| tauto]. split; [now left | now apply Gw].
Qed.
Lemma conditional_good args iss : Forall2 good_arg args iss ->
  (forall a w, In a args -> zg_when a = Some w -> exists k, zsh_when ere e w = Ok k) ->
  exists added, conditional ere e args = Ok added /\
    forall array, exists items words, array_after holds array added = Some (array ++ words) /\ Forall2 means items words /\
      forall i, In i items <-> In i (concat iss) /\ active (when_of i) = true.
Proof.
  induction 1 as [| a is args iss (Ga & Gn & Gw) _ IH]; intros Hw.
  - exists []. split; [reflexivity |]. intros array. exists [], []. cbn. rewrite app_nil_r. split; [reflexivity |]. split; [constructor | tauto].
  - destruct IH as (added & E & H); [intros b w Hb; apply Hw; now right |]. cbn [conditional].
    destruct (zg_when a) as [w |] eqn:Ew.
    + destruct (Hw a w (or_introl eq_refl) Ew) as (k & Ek). rewrite Ek. cbn [bind]. rewrite E. cbn [bind]. eexists. split; [reflexivity |].
      intros array. cbn [array_after]. destruct (holds k) eqn:Eh.
      * destruct (array_one _ _ Ga) as (ws & E1 & F1). rewrite E1. destruct (H (array ++ ws)) as (items & words & E2 & F2 & Hi).
        exists (is ++ items), (ws ++ words). rewrite E2, <- app_assoc. split; [reflexivity |]. split; [now apply Forall2_app |].
        intros i. cbn [concat]. rewrite !in_app_iff, Hi. split; [| tauto].
        intros [Hx | Hx]; [| tauto]. split; [now left |]. rewrite (Gw i Hx). cbn [active]. now rewrite Ek.
      * destruct (H array) as (items & words & E2 & F2 & Hi). exists items, words. split; [exact E2 |]. split; [exact F2 |].
        intros i. cbn [concat]. rewrite in_app_iff, Hi. split; [tauto |]. intros [[Hx | Hx] Ha]; [| tauto].
        rewrite (Gw i Hx) in Ha. cbn [active] in Ha. rewrite Ek in Ha. congruence.
    + exists added. split; [exact E |]. intros array. destruct (H array) as (items & words & E2 & F2 & Hi). exists items, words.
      split; [exact E2 |]. split; [exact F2 |]. intros i. cbn [concat]. rewrite in_app_iff, Hi. split; [tauto |]. intros [[Hx | Hx] Ha]; [| tauto].
      rewrite (Gw i Hx) in Ha. discriminate.
Qed.
Lemma means_specs items words : Forall2 means items words -> exists specs, read_specs words = Some specs /\ Forall2 says items specs.
Proof.
  induction 1 as [| i w items words (z & Ez & Hz) _ (specs & E & F)]; [exists []; split; [reflexivity | constructor] |].
  exists (z :: specs). cbn [read_specs]. rewrite Ez, E. split; [reflexivity | now constructor].
Qed.
Lemma array_text_lines args : zsh_array (array_text args) = zsh_array (flat_map (fun t => s "  " ++ t ++ [LF]) (map zg_spec (without_when args))).
Proof.
  unfold array_text. destruct (without_when args) as [| a l]; [reflexivity |].
  unfold zsh_array. change (zread ZPlain None (LF :: ?x)) with (zread ZPlain None x).
  f_equal. cbn [zread]. rewrite !flat_map_concat_map, map_map. reflexivity.
Qed.

Definition condition (w : str) : option str := match zsh_when ere e w with Ok k => Some k | Err _ => None end.
Lemma active_iff i : when_of i = None \/ active (when_of i) = true <-> item_active condition holds i.
Proof.
  unfold item_active, condition, active. destruct (when_of i) as [w |]; [| split; [now left |]; intros _; now left]. split.
  - intros [H | H]; [discriminate |]. right. destruct (zsh_when ere e w) as [| k] eqn:E; [discriminate |]. exists w, k. rewrite E. auto.
  - intros [H | (w' & k & E & Hk & Hh)]; [discriminate |]. injection E as <-. right. destruct (zsh_when ere e w); [discriminate |]. now injection Hk as ->.
Qed.
Lemma code_good root ps c : built root -> located root ps c -> here = (ps, c) ->
  (forall d, In d (c :: ps) -> plain_command d) ->
  (forall d o, In d (c :: ps) -> In o (c_options d) -> plain_texts (option_action here o)) ->
  (forall p q, p = here \/ In p (ancestors ps) -> In q (c_positionals (snd p)) -> plain_texts (positional_action p q)) ->
  (forall p, p = here \/ In p (ancestors ps) -> c_subcommands (snd p) <> None -> plain_texts (command_action p)) ->
  (forall i w, has_item ps c i -> when_of i = Some w -> exists k, zsh_when ere e w = Ok k) ->
  exists r, option_parsing option_action positional_action command_action ere e ps c = Ok r /\
    match r with
    | None => forall i, ~ has_item ps c i
    | Some k => exists specs, specified (option_action here) positional_action command_action condition holds ps c (zc_array k) (zc_conditional k) specs
    end.
Proof.
  intros Hb Hl Hh Hp Ho Hq Hc Hw. 
  assert (Hvd : forall d, In d (c :: ps) -> valid_command d).
  { intros d [<- | Hd]; [eapply built_valid; eauto |]. destruct (chain_place ps d Hd) as (qs & Hqs).
    exact (built_valid root qs d Hb (ancestors_located _ _ _ (qs, d) Hl Hqs)). }
  assert (Hoption : forall owner o, In (owner, o) (options_with_owner ps c (negb (xbool_eqb (c_inherit c) XFalse))) -> In owner (c :: ps) /\ In o (c_options owner)).
  { intros owner o Hi. apply (options_with_owner_In root) in Hi; auto. destruct Hi as (near & far & E & Hi & _). split; [| exact Hi].
    destruct (negb _); rewrite ?E; [apply in_or_app; right; now left |].
    destruct near as [| ? [| ? ?]]; cbn in E; inversion E; subst; now left. }
  unfold option_parsing, function_args.
  destruct (map_res_good (fun x => complete_option option_action (ps, c) (fst x) (snd x)) (fun x => map (ItemOption (fst x) (snd x)) (o_strings (snd x)))
    (options_with_owner ps c (negb (xbool_eqb (c_inherit c) XFalse)))) as (args1 & E1 & F1).
  { intros [owner o] Hi. destruct (Hoption _ _ Hi) as [H1 H2]. cbn [fst snd]. rewrite <- Hh. apply option_arg; eauto.
    now apply (Hvd owner H1). }
  rewrite E1. cbn [bind].
  destruct (arguments_good root (parent_places ps ++ [(ps, c)]) 0) as (args2 & E2 & F2).
  { intros p Hi. assert (Hpp : p = here \/ In p (ancestors ps)) by (apply in_app_or in Hi as [Hi | [<- | []]]; [right; now apply parent_places_In | left; auto]).
    assert (Hlp : located root (fst p) (snd p)) by (destruct Hpp as [-> | Hpp]; [rewrite Hh; exact Hl | eapply ancestors_located; eauto]).
    assert (Hin : In (snd p) (c :: ps)) by (destruct Hpp as [-> | Hpp]; [rewrite Hh; now left | right; eapply ancestors_snd; eauto]).
    split; [exact Hlp |]. split; [now apply Hp |]. split; [| split; [intros q Hiq; now apply Hq | intros; now apply Hc]].
    intros q Hiq. now apply (Hvd (snd p) Hin). }
  rewrite E2. cbn [bind]. rewrite (pl_wraps _ (Hp c (or_introl eq_refl))). rewrite app_nil_r.
  pose proof (Forall2_app F1 F2) as F. fold (function_items ps c) in F. set (args := args1 ++ args2) in *.
  pose proof (fun i => function_items_In root ps c i Hb Hl) as HI.
  destruct args as [| a0 args0] eqn:Ea.
  - exists None. split; [reflexivity |]. intros i Hi. apply HI in Hi. inversion F as [Ef |]. rewrite <- H in Hi. destruct Hi.
  - rewrite <- Ea in *.
    destruct (conditional_good args _ F) as (added & Ec & Hadd).
    { intros a w Hina Ew. destruct (Forall2_In_l _ _ _ a F Hina) as (is & His & _ & Hne & Hwn). destruct is as [| i is]; [congruence |].
      apply (Hw i); [apply HI; apply in_concat; exists (i :: is); split; [exact His | now left] |]. rewrite Hwn by now left. exact Ew. }
    rewrite Ec. cbn [bind]. exists (Some (ZCode (array_text args) added)). split; [rewrite Ea; reflexivity |]. cbn [zc_array zc_conditional].
    destruct (without_when_good _ _ F) as (iss1 & G1 & Hi1). destruct (array_lines _ _ G1) as (array & E3 & F3).
    destruct (Hadd array) as (items & words & E4 & F4 & Hi4).
    destruct (means_specs (concat iss1 ++ items) (array ++ words)) as (specs & E5 & F5); [now apply Forall2_app |].
    exists specs, array, (array ++ words), (concat iss1 ++ items). rewrite array_text_lines. repeat (split; [assumption |]).
    intros i. rewrite in_app_iff, Hi1, Hi4, HI, <- active_iff. tauto.
Qed.
End Code.
End Function.
