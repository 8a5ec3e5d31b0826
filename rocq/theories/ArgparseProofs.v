(** * Proofs about the conversion of argparse's parsers. *)
From Verif Require Import Base PyStr Value Cli ArgparseSource Argparse SpecScheme SpecCli SpecArgparse CliProofs CliMore HelpersMore ParserProofs CaptureProofs.
From Coq Require Import Lia.
Open Scope list_scope.

(** ** Induction on parsers *)
Section ParserInd.
Variable P : parser -> Prop.
Hypothesis H : forall prog d al items groups,
  (forall choices helps n q, In (Sub choices helps) items -> In (n, q) choices -> P q) -> P (Parser prog d al items groups).
Fixpoint parser_ind' (p : parser) : P p.
Proof.
  destruct p as [prog d al items groups]. apply H.
  induction items as [|i items IH]; [intros ch hp n q []|].
  intros ch hp n q [E|Hi]; [|exact (IH ch hp n q Hi)].
  destruct i as [a|ch0 hp0]; [discriminate|].
  assert (forall n q, In (n, q) ch0 -> P q) as H0.
  { clear -parser_ind'. induction ch0 as [|[n0 q0] ch0 IHc]; [intros n q []|].
    intros n q [E|Hi]; [|exact (IHc n q Hi)]. assert (q = q0) as -> by congruence. exact (parser_ind' q0). }
  intros Hi. assert (ch0 = ch) as <- by congruence. exact (H0 n q Hi).
Qed.
End ParserInd.

(** ** The loops of [to_commandline] by name *)
Section Loops.
Variable conv : parser -> str -> option str -> res cmd.
Section Each.
Variable helps : list (str * option str).
Fixpoint each (choices : list (str * parser)) (l : list cmd) : res (list cmd) :=
  match choices with
  | [] => Ok l
  | (n, q) :: choices' =>
      do sub <- conv q n (help_of helps n);
      do l' <- add_commandline_object l sub;
      each choices' l'
  end.
End Each.
Fixpoint loop (items : list item) (c : cmd) (number : Z) : res cmd :=
  match items with
  | [] => Ok c
  | Act a :: items' =>
      match a_strings a with
      | [] =>
          do q <- positional_of_action (number + 1) a;
          loop items' (set_positionals c (c_positionals c ++ [q])) (number + 1)%Z
      | _ =>
          do o <- option_of_action a;
          do c' <- add_option c o;
          loop items' c' number
      end
  | Sub choices helps :: items' =>
      if negb (forallb (fun h => mems (fst h) (map fst choices)) helps) then Err KeyError
      else
        do c' <- add_subcommands c;
        do l <- each helps choices [];
        loop items' (set_subcommands c' (Some l)) number
  end.
End Loops.

Lemma to_commandline_eq prog d al items groups name description :
  to_commandline (Parser prog d al items groups) name description =
  do c0 <- mk_commandline (match name with [] => prog | _ => name end) (or_else description d) al None XInherit XInherit XInherit;
  do c1 <- loop to_commandline items c0 0%Z;
  Ok (set_options c1 (apply_groups 1 groups (c_options c1))).
Proof. reflexivity. Qed.

Section LoopProofs.
Variable conv : parser -> str -> option str -> res cmd.

Lemma each_ok helps choices l0 l : NoDup (map c_prog l0) ->
  (each conv helps choices l0 = Ok l <->
   exists r, Forall2 (fun nq sub => conv (snd nq) (fst nq) (help_of helps (fst nq)) = Ok sub) choices r /\ l = l0 ++ r /\ NoDup (map c_prog l)).
Proof.
  revert l0. induction choices as [|[n q] choices IH]; intros l0 Hn; cbn [each].
  - split.
    + intros E. apply Ok_inj in E. subst l. exists []. rewrite app_nil_r. auto.
    + intros (r & H & -> & _). inversion H. now rewrite app_nil_r.
  - destruct (conv q n (help_of helps n)) as [e|sub] eqn:Es; cbn [bind].
    + split; [discriminate|]. intros (r & H & _). inversion H as [|? ? ? ? E]; subst. cbn in E. congruence.
    + destruct (add_commandline_object l0 sub) as [e|l'] eqn:Ea; cbn [bind].
      * split; [discriminate|]. intros (r & H & -> & Hd). inversion H as [|? sub' ? r' E]; subst. cbn in E.
        assert (sub' = sub) as -> by congruence. exfalso.
        assert (add_commandline_object l0 sub = Ok (l0 ++ [sub])) as E2.
        { apply add_object_ok. split; [reflexivity|]. rewrite map_app in Hd. cbn in Hd. apply NoDup_remove_2 in Hd.
          intros Hi. apply Hd, in_or_app. auto. }
        congruence.
      * apply add_object_ok in Ea as [-> Hp]. rewrite IH.
        2: { rewrite map_app. apply NoDup_snoc; assumption. }
        split.
        -- intros (r & H & -> & Hd). exists (sub :: r). rewrite <- app_assoc in *. repeat split; try assumption. constructor; assumption.
        -- intros (r & H & -> & Hd). inversion H as [|? sub' ? r' E H']; subst. cbn in E.
           assert (sub' = sub) as -> by congruence. exists r'. rewrite <- app_assoc. auto.
Qed.

Inductive adds : list (list (str * parser) * list (str * option str)) -> option (list cmd) -> option (list cmd) -> Prop :=
| adds_nil x : adds [] x x
| adds_cons choices helps rest l y : forallb (fun h => mems (fst h) (map fst choices)) helps = true ->
    each conv helps choices [] = Ok l -> adds rest (Some l) y -> adds ((choices, helps) :: rest) None y.

Inductive numbered : Z -> list action -> list pos -> Prop :=
| nu_nil n : numbered n [] []
| nu_cons n a l q r : positional_of_action (n + 1) a = Ok q -> numbered (n + 1) l r -> numbered n (a :: l) (q :: r).

Definition made (a : action) (o : opt) : Prop := option_of_action a = Ok o /\ valid_option o.

Lemma loop_ok items c number c1 :
  loop conv items c number = Ok c1 <->
  exists os ps y, Forall2 made (options items) os /\ numbered number (positionals items) ps /\
    adds (subparsers items) (c_subcommands c) y /\
    c1 = set_subcommands (set_positionals (set_options c (c_options c ++ os)) (c_positionals c ++ ps)) y.
Proof.
  revert c number. induction items as [|i items IH]; intros c number; cbn [loop].
  - split.
    + intros E. apply Ok_inj in E. subst c1. exists [], [], (c_subcommands c). rewrite !app_nil_r.
      repeat split; try constructor. destruct c; reflexivity.
    + intros (os & ps & y & H1 & H2 & H3 & ->). inversion H1. inversion H2. inversion H3. subst. rewrite !app_nil_r. destruct c; reflexivity.
  - destruct i as [a|choices helps].
    + unfold options, positionals, subparsers, actions. cbn [flat_map app filter].
      destruct (a_strings a) as [|x l] eqn:Es.
      * destruct (positional_of_action (number + 1) a) as [e|q] eqn:Eq; cbn [bind].
        -- split; [discriminate|]. intros (os & ps & y & _ & H2 & _). inversion H2. subst. congruence.
        -- rewrite IH. split.
           ++ intros (os & ps & y & H1 & H2 & H3 & ->). exists os, (q :: ps), y.
              destruct c. cbn in *. rewrite <- app_assoc. repeat split; try assumption. constructor; assumption.
           ++ intros (os & ps & y & H1 & H2 & H3 & ->). inversion H2 as [|? ? ? q' r Eq' Hr]; subst.
              assert (q' = q) as -> by congruence. exists os, r, y. destruct c. cbn in *. rewrite <- app_assoc. auto.
      * destruct (option_of_action a) as [e|o] eqn:Eo; cbn [bind].
        -- split; [discriminate|]. intros (os & ps & y & H1 & _). inversion H1 as [|? ? ? ? [E _]]. subst. congruence.
        -- unfold add_option. destruct (mk_option o) as [e|o'] eqn:Em; cbn [bind].
           ++ split; [discriminate|]. intros (os & ps & y & H1 & _). inversion H1 as [|? o' ? ? [E V]]. subst.
              assert (o' = o) as -> by congruence. assert (mk_option o = Ok o) by (apply mk_option_iff; auto). congruence.
           ++ apply mk_option_iff in Em as [-> V]. rewrite IH. split.
              ** intros (os & ps & y & H1 & H2 & H3 & ->). exists (o :: os), ps, y. destruct c. cbn in *. rewrite <- app_assoc.
                 repeat split; try assumption. constructor; [split|]; assumption.
              ** intros (os & ps & y & H1 & H2 & H3 & ->). inversion H1 as [|? o' ? r [E _] Hr]; subst.
                 assert (o' = o) as -> by congruence. exists r, ps, y. destruct c. cbn in *. rewrite <- app_assoc. auto.
    + unfold options, positionals, subparsers, actions. cbn [flat_map app filter].
      destruct (forallb _ helps) eqn:Ef; cbn [negb].
      2: { split; [discriminate|]. intros (os & ps & y & _ & _ & H3 & _). inversion H3. subst. congruence. }
      unfold add_subcommands. destruct (c_subcommands c) as [l0|] eqn:Ec; cbn [bind].
      { split; [discriminate|]. intros (os & ps & y & _ & _ & H3 & _). inversion H3. }
      destruct (each conv helps choices []) as [e|l] eqn:Ee; cbn [bind].
      { split; [discriminate|]. intros (os & ps & y & _ & _ & H3 & _). inversion H3. subst. congruence. }
      rewrite IH. split.
      * intros (os & ps & y & H1 & H2 & H3 & ->). exists os, ps, y. destruct c. cbn in *. subst.
        repeat split; try assumption. apply adds_cons with l; assumption.
      * intros (os & ps & y & H1 & H2 & H3 & ->). inversion H3 as [|? ? ? l' ? Hf He Hr]; subst.
        assert (l' = l) as -> by congruence. exists os, ps, y. destruct c. cbn in *. auto.
Qed.
End LoopProofs.

(** ** One argument *)
Lemma pyrange_same start stop step x : in_range start (if (step >? 0)%Z then (stop - 1)%Z else (stop + 1)%Z) step x <-> in_pyrange start stop step x.
Proof.
  unfold in_range, in_pyrange. rewrite Z.gtb_ltb. destruct (0 <? step)%Z eqn:E.
  - apply Z.ltb_lt in E. split; intros (k & H1 & H2 & H3 & H4); exists k; repeat split; lia.
  - apply Z.ltb_ge in E. split; intros (k & H1 & H2 & H3 & H4); exists k; repeat split; lia.
Qed.

Lemma not_given_iff a : not_given a <-> match a_complete a with Some (_ :: _) => False | _ => True end.
Proof. unfold not_given. destruct (a_complete a) as [[|x l]|]; split; try tauto; try (intros [E|E]; discriminate). Qed.

Lemma choices_completes a : not_given a ->
  completes a (match choices_complete (a_choices a) with Some l => l | None => [VStr (s "none")] end).
Proof.
  intros Hg. destruct (a_choices a) as [|start stop step|v] eqn:E; cbn [choices_complete].
  - apply co_none; [exact Hg|left; exact E].
  - destruct (range_nonempty start stop step) eqn:En.
    + unfold range_to_complete. destruct (step =? 1)%Z eqn:E1.
      * apply Z.eqb_eq in E1. subst step. apply (co_interval a start stop 1); [exact Hg|exact E|].
        intros x. apply (pyrange_same start stop 1).
      * apply Z.eqb_neq in E1. apply (co_range a start stop step); [exact Hg|exact E|intros x; apply pyrange_same|exact E1].
    + apply co_none; [exact Hg|]. right. right. right. exists start, stop, step. split; [exact E|].
      intros Hs x (k & Hk & -> & Hp & Hm). unfold range_nonempty in En. rewrite Z.gtb_ltb in En.
      destruct (0 <? step)%Z eqn:Es.
      * apply Z.ltb_lt in Es. apply Z.ltb_ge in En. specialize (Hp Es). nia.
      * apply Z.ltb_ge in Es. apply Z.ltb_ge in En. assert (step < 0)%Z as Hl by lia. specialize (Hm Hl). nia.
  - destruct v as [| | | | |[|x l]|[|x l]]; cbn;
      try (apply co_choices; [exact Hg|discriminate|discriminate|exact E]).
    + apply co_none; [exact Hg|]. right. left. exact E.
    + apply co_none; [exact Hg|]. right. right. left. exact E.
Qed.

Lemma get_complete_store a : a_kind a = KStore -> exists x l, get_complete a = Ok (Some (x :: l)) /\ completes a (x :: l).
Proof.
  intros Ek. unfold get_complete. rewrite Ek. pose proof (choices_completes a) as Hc. pose proof (not_given_iff a) as Hn.
  destruct (a_complete a) as [[|x l]|] eqn:Ec.
  2: { exists x, l. split; [reflexivity|]. apply co_given; [discriminate|exact Ec]. }
  all: specialize (Hc (proj2 Hn I)); assert (choices_complete (a_choices a) <> Some []) as Hne
    by (destruct (a_choices a) as [|? ? ?|v]; cbn; [discriminate| |destruct v as [| | | | |[|? ?]|[|? ?]]; discriminate];
        destruct (range_nonempty _ _ _); [|discriminate]; unfold range_to_complete; destruct (_ =? 1)%Z; discriminate);
    destruct (choices_complete (a_choices a)) as [[|x l]|]; [congruence|exists x, l; auto|exists (VStr (s "none")), []; auto].
Qed.

Lemma get_complete_flag a : arity_ok a -> a_kind a <> KStore -> get_complete a = Ok None.
Proof. unfold arity_ok, get_complete. destruct (a_kind a); intros [H1 H2] H3; congruence. Qed.
Lemma get_complete_ok a l : get_complete a = Ok l -> arity_ok a.
Proof. unfold get_complete, arity_ok. destruct (a_kind a); intros H; split; congruence. Qed.

Lemma metavar_iff a m : metavar_or_dest a = Ok m <-> exists x, m = Some x /\ placeholder a x.
Proof.
  unfold metavar_or_dest. split.
  - destruct (a_metavar a) as [|[|c x]|[|x l]] eqn:E; intros H; try discriminate; apply Ok_inj in H; subst m; eexists; (split; [reflexivity|]).
    1,2,4: apply ph_dest; rewrite E; auto.
    apply ph_metavar; [discriminate|exact E].
  - intros (x & -> & [y Hm E|[E|[E|E]]]); rewrite E; try reflexivity. destruct y; [congruence|reflexivity].
Qed.
Lemma metavar_total a : one_metavar a <-> exists m, metavar_or_dest a = Ok m.
Proof.
  unfold one_metavar, metavar_or_dest. split.
  - intros H. destruct (a_metavar a) as [|[|c x]|[|x l]]; eauto. elim (H x l eq_refl).
  - intros [m H] x l E. rewrite E in H. discriminate.
Qed.

Lemma str_eqb_iff x y : str_eqb x y = true <-> x = y.
Proof. split; [apply str_eqb_eq|intros ->; apply str_eqb_refl]. Qed.
Lemma optional_iff a : match a_nargs a with NText x => str_eqb x (s "?") | _ => false end = true <-> a_nargs a = NText (s "?").
Proof. destruct (a_nargs a) as [|z|x]; [split; discriminate|split; discriminate|]. rewrite str_eqb_iff. split; [intros ->; reflexivity|congruence]. Qed.
Lemma suppressed_iff a : match a_help a with Some x => str_eqb x SUPPRESS | None => false end = true <-> suppressed a.
Proof. unfold suppressed. destruct (a_help a) as [x|]; [|split; discriminate]. rewrite str_eqb_iff. split; [intros ->; reflexivity|congruence]. Qed.
Lemma final_iff a : get_final a = true <-> a_kind a = KHelp \/ a_kind a = KVersion \/ a_final a = true.
Proof. unfold get_final. destruct (a_kind a); split; try tauto; try (intros [E|[E|E]]; congruence); auto. Qed.

Lemma kstore_dec a : a_kind a = KStore \/ a_kind a <> KStore.
Proof. destruct (a_kind a); auto; right; discriminate. Qed.

Lemma made_option a o : option_of_action a = Ok o -> option_of a o /\ o_groups o = None /\ arity_ok a /\ (a_kind a = KStore -> one_metavar a).
Proof.
  unfold option_of_action. intros H. destruct (get_complete a) as [e|complete] eqn:Ec; [discriminate|]. cbn [bind] in H.
  pose proof (get_complete_ok a complete Ec) as Ha.
  destruct (kstore_dec a) as [Ek|Ek].
  - destruct (get_complete_store a Ek) as (x & l & E & Hc). assert (complete = Some (x :: l)) as -> by congruence.
    destruct (metavar_or_dest a) as [e|m] eqn:Em; [discriminate|]. cbn [bind] in H. apply Ok_inj in H. subst o.
    destruct (proj1 (metavar_iff a m) Em) as (y & -> & Hy).
    split; [|split; [reflexivity|split; [exact Ha|intros _; apply metavar_total; eauto]]].
    split; cbn.
    + reflexivity.
    + congruence.
    + intros _. exists (x :: l), y. auto.
    + apply optional_iff.
    + apply suppressed_iff.
    + reflexivity.
    + apply final_iff.
    + reflexivity.
    + reflexivity.
  - rewrite (get_complete_flag a Ha Ek) in Ec. apply Ok_inj in Ec. subst complete. cbn [bind] in H. apply Ok_inj in H. subst o.
    split; [|split; [reflexivity|split; [exact Ha|congruence]]]. split; cbn.
    + reflexivity.
    + auto.
    + congruence.
    + apply optional_iff.
    + apply suppressed_iff.
    + reflexivity.
    + apply final_iff.
    + reflexivity.
    + reflexivity.
Qed.

Lemma made_positional number a q : positional_of_action (Z.of_nat number + 1) a = Ok q -> positional_of (S number) a q /\ arity_ok a /\ one_metavar a.
Proof.
  unfold positional_of_action. intros H. destruct (get_complete a) as [e|complete] eqn:Ec; [discriminate|]. cbn [bind] in H.
  pose proof (get_complete_ok a complete Ec) as Ha.
  destruct (metavar_or_dest a) as [e|m] eqn:Em; [discriminate|]. cbn [bind] in H.
  split; [|split; [exact Ha|apply metavar_total; eauto]].
  unfold mk_positional in H. destruct (Z.of_nat number + 1 <=? 0)%Z; [discriminate|]. apply Ok_inj in H. subst q.
  split; cbn [p_number p_complete p_metavar p_help p_repeatable p_when].
  - lia.
  - intros Ek. destruct (get_complete_store a Ek) as (x & l & E & Hc). assert (complete = Some (x :: l)) as -> by congruence. exact Hc.
  - apply metavar_iff. exact Em.
  - reflexivity.
  - destruct (a_nargs a) as [|z|x]; cbn [is_repeatable].
    + split; auto.
    + destruct (Z.eqb_spec z 1) as [->|Hz]; cbn.
      * split; auto.
      * split; [discriminate|]. intros [E|[E|E]]; congruence.
    + destruct (str_eqb x (s "?")) eqn:E; cbn.
      * apply str_eqb_eq in E. subst x. split; auto.
      * split; [discriminate|]. intros [E'|[E'|E']]; try discriminate. assert (x = s "?") as -> by (injection E'; auto). rewrite str_eqb_refl in E. discriminate.
  - reflexivity.
Qed.

Lemma numbered_positionals number l r : numbered (Z.of_nat number) l r -> positionals_of (S number) l r.
Proof.
  revert number r. induction l as [|a l IH]; intros number r H; inversion H as [|? ? ? q r' Eq Hr]; subst; constructor.
  - apply made_positional in Eq. tauto.
  - apply IH. now rewrite Nat2Z.inj_succ, <- Z.add_1_r.
Qed.

(** ** Groups *)
Definition hits (g : list (list str)) (o : opt) : bool := existsb (fun strings => share strings (o_strings o)) g.
Fixpoint regroup (n : nat) (groups : list (list (list str))) (o : opt) : opt :=
  match groups with
  | [] => o
  | g :: groups' => regroup (S n) groups' (if hits g o then set_groups o [s "group" ++ show_nat n] else o)
  end.
Lemma apply_groups_map n groups l : apply_groups n groups l = map (regroup n groups) l.
Proof.
  revert n l. induction groups as [|g groups IH]; intros n l; cbn [apply_groups regroup]; [now rewrite map_id|].
  rewrite IH, map_map. reflexivity.
Qed.
Lemma regroup_cases n groups o : regroup n groups o = o \/ exists x, regroup n groups o = set_groups o x.
Proof.
  revert n o. induction groups as [|g groups IH]; intros n o; cbn [regroup]; [auto|].
  destruct (hits g o); [|apply IH]. right. destruct (IH (S n) (set_groups o [s "group" ++ show_nat n])) as [->|[x ->]]; [eauto|].
  exists x. reflexivity.
Qed.
Lemma hits_set g o x : hits g (set_groups o x) = hits g o.
Proof. reflexivity. Qed.
Lemma regroup_groups n groups o :
  (o_groups (regroup n groups o) = o_groups o /\ forall g, In g groups -> hits g o = false) \/
  exists k g, nth_error groups k = Some g /\ hits g o = true /\ o_groups (regroup n groups o) = Some [s "group" ++ show_nat (n + k)].
Proof.
  revert n o. induction groups as [|g groups IH]; intros n o; cbn [regroup]; [left; split; [reflexivity|intros g []]|].
  destruct (hits g o) eqn:E.
  - right. destruct (IH (S n) (set_groups o [s "group" ++ show_nat n])) as [[Hg Hn]|(k & g' & Hk & Hh & Hg)].
    + exists 0%nat, g. rewrite Hg, Nat.add_0_r. auto.
    + exists (S k), g'. rewrite Hg. rewrite Nat.add_succ_r. auto.
  - destruct (IH (S n) o) as [[Hg Hn]|(k & g' & Hk & Hh & Hg)].
    + left. split; [exact Hg|]. intros g' [<-|Hi]; auto.
    + right. exists (S k), g'. rewrite Hg, Nat.add_succ_r. auto.
Qed.
Lemma share_iff x y : share x y = true <-> exists z, In z x /\ In z y.
Proof.
  unfold share. rewrite existsb_exists. split; intros (z & Hz & H); exists z; (split; [exact Hz|]); [now apply mems_iff|now apply mems_iff].
Qed.
Lemma hits_iff p a o g : orderly p -> In a (options (items_of p)) -> o_strings o = a_strings a -> In g (groups_of p) ->
  (hits g o = true <-> In (a_strings a) g).
Proof.
  intros Ho Ha Es Hg. unfold hits. rewrite existsb_exists. split.
  - intros (x & Hx & Hs). apply share_iff in Hs as (z & Hz & Hz'). rewrite Es in Hz'.
    destruct (or_members p Ho g x Hg Hx) as [->|Hm]; [destruct Hz|].
    apply in_map_iff in Hm as (b & <- & Hb). rewrite (or_disjoint p Ho a b z); assumption.
  - intros Hi. exists (a_strings a). split; [exact Hi|]. apply share_iff. rewrite Es.
    unfold options in Ha. apply filter_In in Ha as [_ Hn]. destruct (a_strings a) as [|z l]; [discriminate|]. exists z. cbn. auto.
Qed.

(** ** The whole parser *)
Lemma help_of_helped helps n : helped helps n (help_of helps n).
Proof.
  unfold helped, help_of. destruct (find _ (rev helps)) as [[m h]|] eqn:E.
  - apply find_some in E as [Hi He]. apply str_eqb_eq in He. cbn in He. subst m. left. now apply in_rev.
  - right. split; [reflexivity|]. intros Hi. apply in_map_iff in Hi as ([m h] & <- & Hi). apply in_rev in Hi.
    apply (find_none _ _ E) in Hi. cbn in Hi. rewrite str_eqb_refl in Hi. discriminate.
Qed.
Lemma or_else_first x y : or_else x y = first_of x y.
Proof. destruct x as [[|c t]|]; reflexivity. Qed.

(** everything [to_commandline] returns *)
Lemma to_commandline_ok prog d al items groups name description c :
  to_commandline (Parser prog d al items groups) name description = Ok c <->
  (forall a, In a al -> one_word a) /\
  exists os ps y, Forall2 made (options items) os /\ numbered 0 (positionals items) ps /\
    adds to_commandline (subparsers items) None y /\
    c = Cmd (match name with [] => prog | _ => name end) (first_of description d) al None XInherit XInherit XInherit
          (map (regroup 1 groups) os) ps y.
Proof.
  rewrite to_commandline_eq, or_else_first.
  destruct (mk_commandline _ _ al None _ _ _) as [e|c0] eqn:E0; cbn [bind].
  - split; [discriminate|]. intros [Ha _]. exfalso.
    assert (mk_commandline (match name with [] => prog | _ => name end) (first_of description d) al None XInherit XInherit XInherit =
      Ok (Cmd (match name with [] => prog | _ => name end) (first_of description d) al None XInherit XInherit XInherit [] [] None)) as E1
      by (apply mk_commandline_iff; (split; [exact Ha|split; [discriminate|reflexivity]])).
    congruence.
  - apply mk_commandline_iff in E0 as (Ha & _ & ->).
    destruct (loop to_commandline items _ 0) as [e|c1] eqn:E1; cbn [bind].
    + split; [discriminate|]. intros [_ (os & ps & y & H1 & H2 & H3 & _)].
      match type of E1 with loop _ _ ?c _ = _ => assert (loop to_commandline items c 0 = Ok (set_subcommands (set_positionals (set_options c (c_options c ++ os)) (c_positionals c ++ ps)) y)) as E2
        by (apply loop_ok; exists os, ps, y; auto) end.
      congruence.
    + apply loop_ok in E1 as (os & ps & y & H1 & H2 & H3 & ->). cbn in *. rewrite apply_groups_map. split.
      * intros E. apply Ok_inj in E. subst c. split; [exact Ha|]. exists os, ps, y. auto.
      * intros [_ (os' & ps' & y' & H1' & H2' & H3' & ->)].
        assert (os' = os) as ->.
        { clear -H1 H1'. revert os' H1'. induction H1 as [|a o l os [E V] _ IH]; intros os' H'; inversion H' as [|? o' ? ? [E' _] Hr]; [reflexivity|].
          subst. f_equal; [congruence|apply IH, Hr]. }
        assert (ps' = ps) as ->.
        { clear -H2 H2'. revert ps' H2'. induction H2 as [|n a l q r E _ IH]; intros ps' H'; inversion H' as [|? ? ? ? ? E' Hr]; [reflexivity|].
          subst. f_equal; [congruence|apply IH, Hr]. }
        assert (y' = y) as ->.
        { clear -H3 H3'. revert y' H3'. induction H3 as [|choices helps rest l y Hf He Hr IH]; intros y' H'; inversion H' as [|? ? ? l' ? Hf' He' Hr']; [reflexivity|].
          subst. assert (l' = l) as -> by congruence. apply IH, Hr'. }
        reflexivity.
Qed.

Lemma option_of_groups a o x : option_of a o -> option_of a (set_groups o x).
Proof. intros [H1 H2 H3 H4 H5 H6 H7 H8 H9]. split; cbn; assumption. Qed.
Lemma option_of_regroup a o n groups : option_of a o -> option_of a (regroup n groups o).
Proof. intros H. destruct (regroup_cases n groups o) as [->|[x ->]]; [exact H|apply option_of_groups, H]. Qed.
Lemma valid_regroup o n groups : valid_option o -> valid_option (regroup n groups o).
Proof. intros H. destruct (regroup_cases n groups o) as [->|[x ->]]; exact H. Qed.

Lemma Forall2_In_r {A B} (R : A -> B -> Prop) l r y : Forall2 R l r -> In y r -> exists x, In x l /\ R x y.
Proof. induction 1 as [|a b l r Hab _ IH]; intros Hi; [destruct Hi|]; destruct Hi as [<-|Hi]; [exists a; cbn; auto|]. destruct (IH Hi) as (x & Hx & Hr). exists x. cbn. auto. Qed.
Lemma Forall2_In_l {A B} (R : A -> B -> Prop) l r x : Forall2 R l r -> In x l -> exists y, In y r /\ R x y.
Proof. induction 1 as [|a b l r Hab _ IH]; intros Hi; [destruct Hi|]; destruct Hi as [<-|Hi]; [exists b; cbn; auto|]. destruct (IH Hi) as (y & Hy & Hr). exists y. cbn. auto. Qed.

Lemma adds_shape conv l y : adds conv l None y -> (l = [] /\ y = None) \/
  exists choices helps r, l = [(choices, helps)] /\ y = Some r /\ each conv helps choices [] = Ok r /\ forallb (fun h => mems (fst h) (map fst choices)) helps = true.
Proof.
  intros H. inversion H as [|choices helps rest r y' Hf He Hr]; subst; [auto|]. right. inversion Hr. subst. eauto 10.
Qed.

Lemma in_subparsers choices helps items : In (choices, helps) (subparsers items) -> In (Sub choices helps) items.
Proof.
  unfold subparsers. intros Hi. apply in_flat_map in Hi as ([a|ch hp] & Hi & H); [destruct H|].
  destruct H as [E|[]]. assert (ch = choices /\ hp = helps) as [-> ->] by (split; congruence). exact Hi.
Qed.

Lemma converts p : forall name description c, to_commandline p name description = Ok c -> converted p name description c.
Proof.
  induction p as [prog d al items groups IH] using parser_ind'. intros name description c H.
  apply to_commandline_ok in H as (Ha & os & ps & y & H1 & H2 & H3 & ->). constructor; cbn.
  - reflexivity.
  - reflexivity.
  - reflexivity.
  - clear -H1. induction H1 as [|a o l os [E _] _ IH]; cbn; constructor; [|exact IH].
    apply option_of_regroup. apply made_option in E. tauto.
  - apply (numbered_positionals 0). exact H2.
  - apply adds_shape in H3 as [[-> ->]|(choices & helps & r & Es & -> & He & _)]; [auto|right].
    exists choices, helps, r. repeat split; [exact Es|].
    apply each_ok in He as (r' & Hr & E & _); [|constructor]. cbn in E. subst r'.
    assert (forall n q, In (n, q) choices -> forall name description c, to_commandline q name description = Ok c -> converted q name description c) as IHc.
    { intros n q Hi. apply (IH choices helps n q); [|exact Hi]. apply in_subparsers. rewrite Es. cbn. auto. }
    clear -IHc Hr. induction Hr as [|[n q] sub l r E _ IHr]; constructor.
    + exists (help_of helps n). split; [apply help_of_helped|]. cbn. apply (IHc n q); [cbn; auto|exact E].
    + apply IHr. intros n' q' Hi. apply (IHc n'). cbn. auto.
Qed.

Lemma converts_wfc p : forall name description c, to_commandline p name description = Ok c -> wfc c.
Proof.
  induction p as [prog d al items groups IH] using parser_ind'. intros name description c H.
  apply to_commandline_ok in H as (Ha & os & ps & y & H1 & H2 & H3 & ->). constructor.
  - unfold wf_head. cbn [c_prog c_help c_aliases c_wraps c_abbrev_cmds c_abbrev_opts c_inherit]. apply mk_commandline_iff; (split; [exact Ha|split; [discriminate|reflexivity]]).
  - cbn. apply Forall_forall. intros o Ho. apply in_map_iff in Ho as (o' & <- & Ho). destruct (Forall2_In_r _ _ _ _ H1 Ho) as (a & _ & _ & V).
    unfold wf_opt. apply mk_option_iff. split; [reflexivity|apply valid_regroup, V].
  - cbn. clear -H2. induction H2 as [|n a l q r E _ IH]; constructor; [|exact IH].
    unfold positional_of_action in E. destruct (get_complete a); [discriminate|]. cbn [bind] in E.
    destruct (metavar_or_dest a); [discriminate|]. cbn [bind] in E. apply mk_positional_wf in E. exact E.
  - unfold subs. cbn. apply adds_shape in H3 as [[_ ->]|(choices & helps & r & Es & -> & He & _)]; [constructor|].
    apply each_ok in He as (r' & _ & _ & Hn); [exact Hn|constructor].
  - unfold subs. cbn. apply adds_shape in H3 as [[_ ->]|(choices & helps & r & Es & -> & He & _)]; [intros x []|].
    intros x Hx. apply each_ok in He as (r' & Hr & E & Hn); [|constructor]. cbn in E. subst r'.
    destruct (Forall2_In_r _ _ _ _ Hr Hx) as ([n q] & Hi & Hc). cbn in Hc.
    apply (IH choices helps n q) in Hc; [exact Hc| |exact Hi]. apply in_subparsers. rewrite Es. cbn. auto.
Qed.
Lemma converts_built p name description c : to_commandline p name description = Ok c -> built c.
Proof. intros H. apply built_iff_copy, copy_wfc. apply (converts_wfc p name description), H. Qed.

Lemma Forall2_nth {A B} (R : A -> B -> Prop) l r i x y : Forall2 R l r -> nth_error l i = Some x -> nth_error r i = Some y -> R x y.
Proof. intros H. revert i. induction H as [|a b l r Hab _ IH]; intros [|i]; cbn; try discriminate; [congruence|apply IH]. Qed.

Lemma exclusive p name description c i j a b o1 o2 : orderly p -> to_commandline p name description = Ok c ->
  nth_error (options (items_of p)) i = Some a -> nth_error (options (items_of p)) j = Some b ->
  nth_error (c_options c) i = Some o1 -> nth_error (c_options c) j = Some o2 ->
  (share_group o1 o2 <-> same_group p a b).
Proof.
  intros Ho H Ea Eb E1 E2. destruct p as [prog d al items groups].
  apply to_commandline_ok in H as (_ & os & ps & y & H1 & _ & _ & ->). cbn in Ea, Eb, E1, E2.
  assert (forall k a o, nth_error (options items) k = Some a -> nth_error (map (regroup 1 groups) os) k = Some o ->
    (o_groups o = None /\ forall g, In g groups -> ~ In (a_strings a) g) \/
    exists n g, nth_error groups n = Some g /\ In (a_strings a) g /\ o_groups o = Some [s "group" ++ show_nat (S n)]) as Hk.
  { intros k a0 o0 Ek Eo. rewrite nth_error_map in Eo. destruct (nth_error os k) as [o'|] eqn:Eo'; [|discriminate]. cbn in Eo.
    assert (o0 = regroup 1 groups o') as -> by congruence.
    destruct (Forall2_nth _ _ _ _ _ _ H1 Ek Eo') as [Em _]. apply made_option in Em as (Hof & Hg & _).
    pose proof (nth_error_In _ _ Ek) as Hin.
    destruct (regroup_groups 1 groups o') as [[Hgr Hno]|(n & g & Hn & Hh & Hgr)].
    - left. split; [congruence|]. intros g Hgi Hi. specialize (Hno g Hgi).
      apply (hits_iff _ a0 o' g Ho Hin (oo_strings _ _ Hof) Hgi) in Hi. congruence.
    - right. exists n, g. repeat split; [exact Hn| |exact Hgr].
      apply (hits_iff _ a0 o' g Ho Hin (oo_strings _ _ Hof) (nth_error_In _ _ Hn)). exact Hh. }
  assert (forall k a, nth_error (options items) k = Some a -> a_strings a <> []) as Hne.
  { intros k a0 Ek. apply nth_error_In in Ek. unfold options in Ek. apply filter_In in Ek as [_ Hn]. destruct (a_strings a0); [discriminate|discriminate]. }
  unfold share_group, same_group. cbn [groups_of].
  destruct (Hk i a o1 Ea E1) as [[G1 N1]|(n1 & g1 & Hn1 & Hi1 & G1)]; rewrite G1.
  - split; [intros (g & ga & gb & E & _); discriminate|]. intros (g & Hg & Hi & _). elim (N1 g Hg Hi).
  - destruct (Hk j b o2 Eb E2) as [[G2 N2]|(n2 & g2 & Hn2 & Hi2 & G2)]; rewrite G2.
    + split; [intros (g & ga & gb & _ & E & _); discriminate|]. intros (g & Hg & _ & Hi). elim (N2 g Hg Hi).
    + split.
      * intros (g & ga & gb & Ega & Egb & Hga & Hgb). assert (ga = [s "group" ++ show_nat (S n1)]) as -> by congruence.
        assert (gb = [s "group" ++ show_nat (S n2)]) as -> by congruence.
        destruct Hga as [<-|[]]. destruct Hgb as [E|[]]. apply app_inv_head, show_nat_inj in E. assert (n2 = n1) as -> by congruence.
        exists g1. rewrite Hn1 in Hn2. assert (g2 = g1) as -> by congruence. repeat split; try assumption. apply (nth_error_In _ _ Hn1).
      * intros (g & Hg & Hia & Hib). apply In_nth_error in Hg as [n Hn].
        assert (n1 = n) as -> by (apply (or_once _ Ho n1 n g1 g (a_strings a)); try assumption; apply (Hne i), Ea).
        assert (n2 = n) as -> by (apply (or_once _ Ho n2 n g2 g (a_strings b)); try assumption; apply (Hne j), Eb).
        exists (s "group" ++ show_nat (S n)), [s "group" ++ show_nat (S n)], [s "group" ++ show_nat (S n)]. cbn. auto.
Qed.

(** ** Which parsers are converted *)
Lemma made_total a : arity_ok a -> (a_kind a = KStore -> one_metavar a) -> a_strings a <> [] ->
  (forall x, In x (a_strings a) -> option_string x) -> (a_nargs a = NText (s "?") -> a_kind a = KStore) -> (suppressed a -> a_repeatable a <> XTrue) ->
  exists o, made a o.
Proof.
  intros Ha Hm Hs Hv Hn Hr.
  assert (exists o, option_of_action a = Ok o) as [o Eo].
  { unfold option_of_action. destruct (kstore_dec a) as [Ek|Ek].
    - destruct (get_complete_store a Ek) as (x & l & -> & _). cbn [bind]. destruct (proj1 (metavar_total a) (Hm Ek)) as [m ->]. cbn [bind]. eauto.
    - rewrite (get_complete_flag a Ha Ek). cbn [bind]. eauto. }
  exists o. split; [exact Eo|].
  assert (o_capture o = None) as Ec.
  { unfold option_of_action in Eo. destruct (get_complete a) as [?|s1]; [discriminate|]. cbn [bind] in Eo.
    destruct (match s1 with Some (_ :: _) => _ | _ => _ end); [discriminate|]. cbn [bind] in Eo. apply Ok_inj in Eo. subst o. reflexivity. }
  assert (a_kind a = KStore -> takes_argument o) as Ht.
  { intros Ek. unfold option_of_action in Eo. destruct (get_complete_store a Ek) as (x & l & E & _). rewrite E in Eo. cbn [bind] in Eo.
    destruct (metavar_or_dest a); [discriminate|]. cbn [bind] in Eo. apply Ok_inj in Eo. subst o. exists x, l. reflexivity. }
  apply made_option in Eo as (Hof & _). repeat split.
  - rewrite (oo_strings _ _ Hof). exact Hs.
  - rewrite (oo_strings _ _ Hof). exact Hv.
  - rewrite Ec. discriminate.
  - intros c m Em. destruct (kstore_dec a) as [Ek|Ek]; [auto|]. destruct (oo_flag _ _ Hof Ek) as [_ E]. congruence.
  - intros Eoa. apply Ht, Hn, (oo_optional _ _ Hof), Eoa.
  - intros [Eh Er]. rewrite (oo_repeatable _ _ Hof) in Er. apply Hr in Er; [exact Er|]. apply (oo_hidden _ _ Hof), Eh.
Qed.

Lemma made_ok a o : made a o -> arity_ok a /\ (a_kind a = KStore -> one_metavar a) /\
  (forall x, In x (a_strings a) -> option_string x) /\ (a_nargs a = NText (s "?") -> a_kind a = KStore) /\ (suppressed a -> a_repeatable a <> XTrue).
Proof.
  intros [E (V1 & V2 & _ & _ & V5 & V6)]. apply made_option in E as (Hof & _ & Ha & Hm). split; [exact Ha|]. split; [exact Hm|]. split; [|split].
  - rewrite <- (oo_strings _ _ Hof). exact V2.
  - intros En. apply (oo_optional _ _ Hof) in En. destruct (V5 En) as (x & l & E). destruct (kstore_dec a) as [Ek|Ek]; [exact Ek|].
    destruct (oo_flag _ _ Hof Ek) as [E2 _]. congruence.
  - intros Es Er. apply V6. split; [apply (oo_hidden _ _ Hof), Es|]. rewrite (oo_repeatable _ _ Hof). exact Er.
Qed.

Lemma positional_total n a : (0 <= n)%Z -> arity_ok a -> one_metavar a -> exists q, positional_of_action (n + 1) a = Ok q.
Proof.
  intros Hn Ha Hm. unfold positional_of_action. destruct (proj1 (metavar_total a) Hm) as [m ->].
  assert (exists l, get_complete a = Ok l) as [l ->].
  { destruct (kstore_dec a) as [Ek|Ek]; [destruct (get_complete_store a Ek) as (x & l & -> & _); eauto|rewrite (get_complete_flag a Ha Ek); eauto]. }
  cbn [bind]. unfold mk_positional. destruct (n + 1 <=? 0)%Z eqn:E; [apply Z.leb_le in E; lia|]. eauto.
Qed.

Lemma converted_called q n description c : to_commandline q n description = Ok c -> c_prog c = called (n, q).
Proof. intros H. apply converts in H. destruct H. cbn. assumption. Qed.

Lemma each_called helps choices r :
  Forall2 (fun nq sub => to_commandline (snd nq) (fst nq) (help_of helps (fst nq)) = Ok sub) choices r -> map c_prog r = map called choices.
Proof.
  induction 1 as [|[n q] sub l r E _ IH]; [reflexivity|]. cbn [map]. rewrite IH. f_equal. cbn in E. apply converted_called in E. exact E.
Qed.

Lemma helps_in helps choices : forallb (fun h : str * option str => mems (fst h) (map fst choices)) helps = true <->
  forall x, In x (map fst helps) -> In x (map (@fst str parser) choices).
Proof.
  rewrite forallb_forall. split.
  - intros H x Hx. apply in_map_iff in Hx as (h & <- & Hh). apply mems_iff, H, Hh.
  - intros H h Hh. apply mems_iff, H, in_map, Hh.
Qed.

(** Success does not depend on the name and the description given. *)
Lemma converts_any q n description c : to_commandline q n description = Ok c ->
  forall name description', exists c', to_commandline q name description' = Ok c'.
Proof.
  destruct q as [prog d al items groups]. intros H name description'.
  apply to_commandline_ok in H as (Ha & os & ps & y & H1 & H2 & H3 & _). eexists. apply to_commandline_ok. split; [exact Ha|].
  exists os, ps, y. eauto.
Qed.

Lemma supported_exactly p : supported p <-> forall name description, exists c, to_commandline p name description = Ok c.
Proof.
  induction p as [prog d al items groups IH] using parser_ind'. split.
  - intros H name description. inversion H as [? ? ? ? ? Hal Hop Hpo Hle Hsu]; subst.
    assert (exists os, Forall2 made (options items) os) as [os Hos].
    { assert (forall a, In a (options items) -> exists o, made a o) as Hm.
      { intros a Ha. destruct (Hop a Ha) as (H1 & H2 & H3 & H4 & H5). apply made_total; try assumption.
        unfold options in Ha. apply filter_In in Ha as [_ Hn]. destruct (a_strings a); [discriminate|discriminate]. }
      clear -Hm. induction (options items) as [|a l IHl]; [exists []; constructor|].
      destruct (Hm a (or_introl eq_refl)) as [o Ho]. destruct IHl as [os Hos]; [intros b Hb; apply Hm; cbn; auto|]. exists (o :: os). constructor; assumption. }
    assert (exists ps, numbered 0 (positionals items) ps) as [ps Hps].
    { assert (forall l n, (0 <= n)%Z -> (forall a, In a l -> arity_ok a /\ one_metavar a) -> exists ps, numbered n l ps) as Hm.
      { induction l as [|a l IHl]; intros n Hn Hl; [exists []; constructor|]. destruct (Hl a (or_introl eq_refl)) as [H1 H2].
        destruct (positional_total n a Hn H1 H2) as [q Hq]. destruct (IHl (n + 1)%Z) as [ps Hps]; [lia|intros b Hb; apply Hl; cbn; auto|].
        exists (q :: ps). constructor; assumption. }
      apply Hm; [lia|exact Hpo]. }
    assert (exists y, adds to_commandline (subparsers items) None y) as [y Hy].
    { destruct (subparsers items) as [|[choices helps] [|x rest]] eqn:Es; [exists None; constructor| |cbn in Hle; lia].
      destruct (Hsu choices helps (or_introl eq_refl)) as (Hnd & Hch & Hhe).
      assert (exists r, Forall2 (fun nq sub => to_commandline (snd nq) (fst nq) (help_of helps (fst nq)) = Ok sub) choices r) as [r Hr].
      { assert (forall n q, In (n, q) choices -> forall name description, exists c, to_commandline q name description = Ok c) as Hc.
        { intros n q Hi. apply (IH choices helps n q); [apply in_subparsers; rewrite Es; cbn; auto|exact Hi|exact (Hch n q Hi)]. }
        clear -Hc. induction choices as [|[n q] l IHl]; [exists []; constructor|].
        destruct (Hc n q (or_introl eq_refl) n (help_of helps n)) as [sub Hs]. destruct IHl as [r Hr]; [intros n' q' Hi; apply (Hc n'); cbn; auto|].
        exists (sub :: r). constructor; assumption. }
      exists (Some r). apply adds_cons with r; [apply helps_in; exact Hhe| |constructor].
      apply each_ok; [constructor|]. exists r. cbn. repeat split; [exact Hr|]. rewrite (each_called helps choices r Hr). exact Hnd. }
    eexists. apply to_commandline_ok. split; [exact Hal|]. exists os, ps, y. eauto.
  - intros H. destruct (H [] None) as [c Hc].
    apply to_commandline_ok in Hc as (Ha & os & ps & y & H1 & H2 & H3 & Ec). constructor.
    + exact Ha.
    + intros a Hi. destruct (Forall2_In_l _ _ _ _ H1 Hi) as (o & _ & Hm). apply made_ok in Hm. exact Hm.
    + assert (forall n l r, numbered (Z.of_nat n) l r -> forall a, In a l -> arity_ok a /\ one_metavar a) as Hm.
      { intros n l. revert n. induction l as [|a l IHl]; intros n r Hr b [].
        - subst b. inversion Hr as [|? ? ? ? ? E]; subst. apply made_positional in E. tauto.
        - inversion Hr as [|? ? ? ? r' _ Hr']; subst. apply (IHl (S n) r'); [|assumption]. now rewrite Nat2Z.inj_succ, <- Z.add_1_r. }
      exact (Hm 0%nat _ _ H2).
    + apply adds_shape in H3 as [[-> _]|(choices & helps & r & -> & _)]; cbn; auto.
    + intros choices helps Hi. pose proof (in_subparsers _ _ _ Hi) as Hin.
      apply adds_shape in H3 as [[E _]|(choices' & helps' & r & E & _ & He & Hf)]; rewrite E in Hi; [destruct Hi|].
      destruct Hi as [Ei|[]]. assert (choices' = choices /\ helps' = helps) as [-> ->] by (split; congruence).
      apply each_ok in He as (r' & Hr & Er & Hn); [|constructor]. cbn in Er. subst r'. repeat split.
      * rewrite <- (each_called helps choices r Hr). exact Hn.
      * intros n q Hq. apply (IH choices helps n q Hin Hq).
        destruct (Forall2_In_l _ _ _ _ Hr Hq) as (sub & _ & Hs). cbn in Hs.
        apply (converts_any q n (help_of helps n) sub Hs).
      * apply helps_in, Hf.
Qed.
