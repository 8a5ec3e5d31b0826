(** * Proofs: the code of a function hands the specifications of the items to [_arguments]. *)
From Verif Require Import Base PyStr Value Algo StrUtils Shell ShellParser Cli CliProofs CliMore ParserPaths When SpecWhen Helpers ZshUtils Zsh
  SpecCli SpecParser SpecZsh SpecZshFunction SpecZshCode ZshCode ZshCodeProofs ZshLines ZshFunction.
Open Scope list_scope.

(** Every specification is read as words, and every condition stands for one of the arguments. *)
Lemma conditional_texts ere e args added : conditional ere e args = Ok added ->
  forall k t, In (k, t) added -> exists a w, In a args /\ zg_when a = Some w /\ zsh_when ere e w = Ok k /\ t = zg_spec a.
Proof.
  revert added. induction args as [| a args IH]; intros added H k t Hi; [injection H as <-; destruct Hi |]. cbn [conditional] in H.
  destruct (zg_when a) as [w |] eqn:Ew.
  - destruct (zsh_when ere e w) as [| k'] eqn:Ek; cbn [bind] in H; [discriminate |]. destruct (conditional ere e args) as [| r]; cbn [bind] in H; [discriminate |].
    injection H as <-. destruct Hi as [K | K].
    + injection K as <- <-. exists a, w. split; [now left | auto].
    + destruct (IH r eq_refl k t K) as (b & w' & Hb & H). exists b, w'. split; [now right | exact H].
  - destruct (IH added H k t Hi) as (b & w & Hb & H'). exists b, w. split; [now right | exact H'].
Qed.
Lemma Forall2_exists {A B} (R : A -> B -> Prop) l : (forall x, In x l -> exists y, R x y) -> exists l', Forall2 R l l'.
Proof.
  induction l as [| a l IH]; intros H; [exists []; constructor |]. destruct (H a (or_introl eq_refl)) as (b & Hb).
  destruct IH as (l' & F); [intros x Hx; apply H; now right |]. exists (b :: l'). now constructor.
Qed.
Lemma array_after_words holds added wss : Forall2 (fun x words => zsh_array (snd x) = Some words) added wss -> forall ws,
  array_after holds ws added = Some (ws ++ concat (map (fun x => if holds (fst (fst x)) then snd x else []) (combine added wss))).
Proof.
  induction 1 as [| [k t] words added wss H F IH]; intros ws; [cbn; now rewrite app_nil_r |]. cbn [array_after combine map concat fst snd] in *.
  destruct (holds k); [rewrite H, IH, app_assoc; reflexivity | apply IH].
Qed.

Section Main.
Variable option_action : place -> opt -> str.
Variable positional_action : place -> pos -> str.
Variable command_action : place -> str.
Variable ere : str -> bool.
Variable e : zenv.
Hypothesis He : good_zenv e.

(** The texts of the arguments *)
Definition readable (args : list zarg) : Prop := forall a, In a args -> exists ws, zsh_array (zg_spec a) = Some ws.
Lemma good_readable here args iss : Forall2 (good_arg option_action positional_action command_action here) args iss -> readable args.
Proof.
  intros F a Ha. destruct (Forall2_In_l _ _ _ a F Ha) as (is & _ & Ga & _). destruct (array_one _ _ _ _ _ _ Ga) as (ws & E & _). now exists ws.
Qed.
Lemma code_runs holds stacking pad args added words0 words : blank_pad pad -> readable args -> conditional ere e args = Ok added ->
  zsh_array (array_text args) = Some words0 -> array_after holds words0 added = Some words ->
  runs_options holds (padded pad stacking (map zg_spec (without_when args)) added) words stacking.
Proof.
  intros Hp Hr Hc Ha Hw.
  destruct (Forall2_exists spec_words (map zg_spec (without_when args))) as (wss0 & F0).
  { intros x Hx. apply in_map_iff in Hx as (a & <- & Hi). apply filter_In in Hi as [Hi _]. exact (Hr a Hi). }
  destruct (Forall2_exists (fun (x : str * str) ws => fine (fst x) /\ spec_words (snd x) ws) added) as (wss & F).
  { intros [k t] Hx. destruct (conditional_texts _ _ _ _ Hc k t Hx) as (a & w & Hi & _ & Hk & ->). destruct (Hr a Hi) as (ws & Hws).
    exists ws. split; [eapply fine_when; eauto | exact Hws]. }
  pose proof (runs_options_padded holds pad stacking _ _ _ _ Hp F0 F) as H.
  assert (words0 = concat wss0) as ->.
  { pose proof (specs_array [] (fun c (K : In c []) => False_ind _ K) _ _ F0) as H0. unfold array_part in H0. unfold array_text in Ha.
    destruct (without_when args) as [| a l]; [cbn [map] in H0; rewrite Ha in H0; now injection H0 |].
    cbn [map] in H0. change (zg_spec a :: map zg_spec l) with (map zg_spec (a :: l)) in H0. rewrite app_nil_r, flat_map_map in H0. cbn [app] in H0, Ha.
    rewrite Ha in H0. now injection H0. }
  assert (F' : Forall2 (fun x ws => zsh_array (snd x) = Some ws) added wss) by (clear -F; induction F as [| x ws added wss [_ Hx] F IH]; constructor; auto).
  rewrite (array_after_words holds _ _ F') in Hw. injection Hw as <-. exact H.
Qed.

Section Place.
Variable root : cmd.
Variable ps : list cmd.
Variable c : cmd.
Hypothesis Hb : built root.
Hypothesis Hl : located root ps c.
Hypothesis Hp : forall d, In d (c :: ps) -> plain_command d.
Hypothesis Ho : forall d o, In d (c :: ps) -> In o (c_options d) -> plain_texts (option_action (ps, c) o).
Hypothesis Hq : forall p q, p = (ps, c) \/ In p (ancestors ps) -> In q (c_positionals (snd p)) -> plain_texts (positional_action p q).
Hypothesis Hc : forall p, p = (ps, c) \/ In p (ancestors ps) -> c_subcommands (snd p) <> None -> plain_texts (command_action p).
Hypothesis Hw : forall i w, has_item ps c i -> when_of i = Some w -> exists k, zsh_when ere e w = Ok k.

Lemma valid_chain d : In d (c :: ps) -> valid_command d.
Proof.
  intros [<- | Hd]; [eapply built_valid; eauto |]. destruct (chain_place ps d Hd) as (qs & Hqs).
  exact (built_valid root qs d Hb (ancestors_located _ _ _ (qs, d) Hl Hqs)).
Qed.
Lemma owner_chain owner o : In (owner, o) (options_with_owner ps c (negb (xbool_eqb (c_inherit c) XFalse))) -> In owner (c :: ps) /\ In o (c_options owner).
Proof.
  intros Hi. apply (options_with_owner_In root) in Hi; auto. destruct Hi as (near & far & E & Hi & _). split; [| exact Hi].
  destruct (negb _); rewrite ?E; [apply in_or_app; right; now left |].
  destruct near as [| ? [| ? ?]]; cbn in E; inversion E; subst; now left.
Qed.
Lemma place_chain p : In p (parent_places ps ++ [(ps, c)]) -> (p = (ps, c) \/ In p (ancestors ps)) /\ located root (fst p) (snd p) /\ In (snd p) (c :: ps).
Proof.
  intros Hi. assert (Hpp : p = (ps, c) \/ In p (ancestors ps)) by (apply in_app_or in Hi as [Hi | [<- | []]]; [right; now apply parent_places_In | left; auto]).
  split; [exact Hpp |]. split; destruct Hpp as [-> | Hpp]; [exact Hl | eapply ancestors_located; eauto | now left | right; eapply ancestors_snd; eauto].
Qed.
Lemma args_good : exists args, function_args option_action positional_action command_action ps c = Ok args /\
  Forall2 (good_arg option_action positional_action command_action (ps, c)) args (function_items ps c).
Proof.
  unfold function_args.
  destruct (map_res_good option_action positional_action command_action (ps, c)
    (fun x => complete_option option_action (ps, c) (fst x) (snd x)) (fun x => map (ItemOption (fst x) (snd x)) (o_strings (snd x)))
    (options_with_owner ps c (negb (xbool_eqb (c_inherit c) XFalse)))) as (args1 & E1 & F1).
  { intros [owner o] Hi. destruct (owner_chain _ _ Hi) as [H1 H2]. cbn [fst snd]. apply option_arg; eauto. now apply (valid_chain owner H1). }
  rewrite E1. cbn [bind].
  destruct (arguments_good option_action positional_action command_action (ps, c) root (parent_places ps ++ [(ps, c)]) 0) as (args2 & E2 & F2).
  { intros p Hi. destruct (place_chain p Hi) as (Hpp & Hlp & Hin).
    split; [exact Hlp |]. split; [now apply Hp |]. split; [| split; [intros q Hiq; now apply Hq | intros; now apply Hc]].
    intros q Hiq. now apply (valid_chain (snd p) Hin). }
  rewrite E2. cbn [bind]. rewrite (pl_wraps _ (Hp c (or_introl eq_refl))). rewrite app_nil_r.
  eexists. split; [reflexivity |]. now apply Forall2_app.
Qed.
Lemma code_all holds : exists r, option_parsing option_action positional_action command_action ere e ps c = Ok r /\
  match r with
  | None => forall i, ~ has_item ps c i
  | Some k => exists args added, function_args option_action positional_action command_action ps c = Ok args /\
      k = ZCode (array_text args) added /\ conditional ere e args = Ok added /\
      (forall a w, In a args -> zg_when a = Some w -> exists i, has_item ps c i /\ when_of i = Some w) /\
      exists words specs items, (forall pad stacking, blank_pad pad -> runs_options holds (padded pad stacking (map zg_spec (without_when args)) added) words stacking) /\
        read_specs words = Some specs /\ Forall2 (says (option_action (ps, c)) positional_action command_action) items specs /\
        forall i, In i items <-> has_item ps c i /\ item_active (condition ere e) holds i
  end.
Proof.
  destruct (code_good option_action positional_action command_action (ps, c) ere e holds root ps c Hb Hl eq_refl Hp Ho Hq Hc Hw) as (r & Er & Hr).
  destruct args_good as (args & Ea & F). exists r. split; [exact Er |]. destruct r as [k |]; [| exact Hr].
  unfold option_parsing in Er. rewrite Ea in Er. cbn [bind] in Er. destruct args as [| a0 args0]; [discriminate Er |]. set (args := a0 :: args0) in *.
  change (bind (conditional ere e args) (fun k => Ok (Some (ZCode (array_text args) k))) = Ok (Some k)) in Er.
  destruct (conditional ere e args) as [| added] eqn:Ec; cbn [bind] in Er; [discriminate |]. injection Er as <-.
  exists args, added. split; [exact Ea |]. split; [reflexivity |]. split; [exact Ec |]. split.
  - intros a w Hi Ew. destruct (Forall2_In_l _ _ _ a F Hi) as (is & His & _ & Hne & Hwn). destruct is as [| i is]; [congruence |].
    exists i. split; [apply (function_items_In option_action positional_action command_action (ps, c) root ps c i Hb Hl); apply in_concat; exists (i :: is); split; [exact His | now left] |]. rewrite Hwn by now left. exact Ew.
  - destruct Hr as (specs & words0 & words & items & H1 & H2 & H3 & H4 & H5). cbn [zc_array zc_conditional] in H1, H2.
    exists words, specs, items. split; [| auto]. intros pad stacking Hpad. eapply code_runs; eauto. eapply good_readable; eauto.
Qed.

(** Definitions whose texts stand on one line *)
Hypothesis Lo : forall d o, In d (c :: ps) -> In o (c_options d) -> one_line_text (o_help o) /\ one_line_text (o_metavar o) /\ one_line (option_action (ps, c) o).
Hypothesis Lq : forall p q, p = (ps, c) \/ In p (ancestors ps) -> In q (c_positionals (snd p)) ->
  one_line_text (p_help q) /\ one_line_text (p_metavar q) /\ one_line (positional_action p q).
Hypothesis Lc : forall p, p = (ps, c) \/ In p (ancestors ps) -> c_subcommands (snd p) <> None -> one_line (command_action p).

Lemma string_line x : plain_option_string x -> one_line x /\ In DASH x.
Proof.
  intros ((d & y & -> & _) & H & _). split; [| now left]. intros K. apply H in K as [_ K]. discriminate.
Qed.
Lemma map_res_In {A B} (f : A -> res B) l : forall r, map_res f l = Ok r -> forall y, In y r -> exists x, In x l /\ f x = Ok y.
Proof.
  induction l as [| a l IH]; intros r H y Hy; [injection H as <-; destruct Hy |]. cbn [map_res] in H. destruct (f a) as [| b] eqn:E; cbn [bind] in H; [discriminate |].
  destruct (map_res f l) as [| r']; cbn [bind] in H; [discriminate |]. injection H as <-. destruct Hy as [<- | Hy]; [exists a; split; [now left | exact E] |].
  destruct (IH r' eq_refl y Hy) as (x & Hx & Ex). exists x. split; [now right | exact Ex].
Qed.
Definition line_arg (a : zarg) : Prop := one_line (zg_spec a) /\ shown (zg_spec a).
Lemma option_line owner o a : In owner (c :: ps) -> In o (c_options owner) -> complete_option option_action (ps, c) owner o = Ok a -> line_arg a.
Proof.
  intros Hown Hio H. unfold complete_option in H. destruct (conflicting_strings_In owner o Hio) as (l & El & Hcl). rewrite El in H. cbn [bind] in H.
  match type of H with bind ?m _ = _ => destruct m as [| text] eqn:Et end; cbn [bind] in H; [discriminate |]. injection H as <-. cbn [line_arg zg_spec].
  destruct (Lo owner o Hown Hio) as (L1 & L2 & L3). pose proof (Hp owner Hown) as Hpl.
  eapply line_option_spec; [exact Et | | | | exact L1 | exact L2 |].
  - intros x Hx. apply in_app_or in Hx as [Hx | Hx]; [apply string_line; eapply pl_strings; eauto |].
    apply Hcl in Hx as (p & Hp1 & _ & _ & Hx). apply string_line. eapply pl_strings; eauto.
  - apply (valid_chain owner Hown). exact Hio.
  - intros x Hx. apply string_line. eapply pl_strings; eauto.
  - now apply line_quote.
Qed.
Lemma positional_text_line q : one_line_text (p_help q) -> one_line_text (p_metavar q) -> one_line (positional_text q).
Proof.
  intros H1 H2. unfold positional_text. destruct (p_help q) as [[| ? ?] |]; try exact H1; destruct (p_metavar q) as [[| ? ?] |]; try exact H2; no_lf.
Qed.
Lemma arguments_line l : (forall p, In p l -> p = (ps, c) \/ In p (ancestors ps)) -> forall n args,
  complete_arguments positional_action command_action n l = Ok args -> forall a, In a args -> line_arg a.
Proof.
  induction l as [| p l IH]; intros Hin n args H a Ha; [injection H as <-; destruct Ha |]. cbn [complete_arguments] in H.
  destruct (map_res (complete_positional positional_action p) (c_positionals (snd p))) as [| own] eqn:E1; cbn [bind] in H; [discriminate |].
  match type of H with bind ?m _ = _ => destruct m as [| sub] eqn:E2 end; cbn [bind] in H; [discriminate |].
  match type of H with bind ?m _ = _ => destruct m as [| r] eqn:E3 end; cbn [bind] in H; [discriminate |]. injection H as <-.
  assert (Hpp : p = (ps, c) \/ In p (ancestors ps)) by (apply Hin; now left).
  apply in_app_or in Ha as [Ha | Ha]; [| apply in_app_or in Ha as [Ha | Ha]].
  - destruct (map_res_In _ _ _ E1 a Ha) as (q & Hiq & Eq). unfold complete_positional in Eq.
    match type of Eq with bind ?m _ = _ => destruct m as [| text] eqn:Et end; cbn [bind] in Eq; [discriminate |]. injection Eq as <-.
    destruct (Lq p q Hpp Hiq) as (L1 & L2 & L3). eapply line_positional_spec; [exact Et | now apply positional_text_line | now apply line_quote].
  - destruct (c_subcommands (snd p)) as [subs |] eqn:Es; cbn [is_some] in E2; [| injection E2 as <-; destruct Ha].
    unfold complete_subcommands in E2. match type of E2 with bind (bind ?m _) _ = _ => destruct m as [| text] eqn:Et end; cbn [bind] in E2; [discriminate |]. injection E2 as <-.
    destruct Ha as [<- | []]. eapply line_positional_spec; [exact Et | apply line_app; [no_lf | apply line_show_nat] |]. apply line_quote, Lc; [exact Hpp | congruence].
  - eapply IH; [intros; apply Hin; now right | exact E3 | exact Ha].
Qed.
Lemma args_line args : function_args option_action positional_action command_action ps c = Ok args -> forall a, In a args -> line_arg a.
Proof.
  unfold function_args. intros H a Ha.
  match type of H with bind ?m _ = _ => destruct m as [| os] eqn:E1 end; cbn [bind] in H; [discriminate |].
  match type of H with bind ?m _ = _ => destruct m as [| qs] eqn:E2 end; cbn [bind] in H; [discriminate |].
  rewrite (pl_wraps _ (Hp c (or_introl eq_refl))), app_nil_r in H. injection H as <-. apply in_app_or in Ha as [Ha | Ha].
  - destruct (map_res_In _ _ _ E1 a Ha) as ([owner o] & Hi & Eo). cbn [fst snd] in Eo. destruct (owner_chain _ _ Hi). eapply option_line; eauto.
  - eapply arguments_line; [| exact E2 | exact Ha]. intros p Hi. now apply place_chain.
Qed.
Lemma function_runs holds (Lw : forall i w, has_item ps c i -> when_of i = Some w -> one_line w) :
  exists r, option_parsing option_action positional_action command_action ere e ps c = Ok r /\
  match r with
  | None => forall i, ~ has_item ps c i
  | Some k => exists words specs items,
      (forall name others stacking, exists code, function_ends_with name (function_code name others stacking (Some k)) code /\ runs_options holds code words stacking) /\
      read_specs words = Some specs /\ Forall2 (says (option_action (ps, c)) positional_action command_action) items specs /\
      forall i, In i items <-> has_item ps c i /\ item_active (condition ere e) holds i
  end.
Proof.
  destruct (code_all holds) as (r & Er & Hr). exists r. split; [exact Er |]. destruct r as [k |]; [| exact Hr].
  destruct Hr as (args & added & Ea & -> & Ec & Hi & words & specs & items & Hrun & H1 & H2 & H3). exists words, specs, items. split; [| auto].
  intros name others stacking. exists (padded (s "  ") stacking (map zg_spec (without_when args)) added). split.
  - apply function_ends. rewrite text_padded. pose proof (args_line args Ea) as La. apply indent_padded.
    + intros t Ht. apply in_map_iff in Ht as (a & <- & Hia). apply filter_In in Hia as [Hia _]. exact (La a Hia).
    + intros k t Hkt. destruct (conditional_texts _ _ _ _ Ec k t Hkt) as (a & w & Hia & Ew & Ek & ->). split; [| apply (La a Hia)].
      destruct (Hi a w Hia Ew) as (i & Hit & Hwt). eapply line_when; [exact He | exact Ek | eapply Lw; eauto].
  - apply Hrun. intros d [<- | [<- | []]]; reflexivity.
Qed.
End Place.
End Main.
