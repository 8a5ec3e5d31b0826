(** * Proofs about DictSource. *)
From Verif Require Import Base Dict StrUtils StrUtilsProofs PreprocProofs Value Cli SpecCli CliProofs DictSource SpecDict.
From Coq Require Import Lia.
Open Scope list_scope.

(** ** Entries *)
Lemma vget_entries k k' o l :
  vget k (entries ((k', o) :: l)) =
  if str_eqb k k' then match o with Some v => Some v | None => vget k (entries l) end
  else vget k (entries l).
Proof.
  unfold vget. cbn [entries]. destruct o as [v|].
  - cbn [dget value_eqb]. reflexivity.
  - destruct (str_eqb k k'); reflexivity.
Qed.
Lemma vget_nil k : vget k (entries []) = None.
Proof. reflexivity. Qed.

Lemma validate_entries l allowed : forallb (fun ko => mems (fst ko) allowed) l = true ->
  validate_keys (entries l) allowed = Ok tt.
Proof.
  intros H. unfold validate_keys.
  replace (forallb _ (entries l)) with true; [reflexivity|]. symmetry.
  induction l as [|[k o] l IH]; [reflexivity|]. cbn [forallb fst] in H.
  apply andb_true_iff in H as [H1 H2]. destruct o as [v|]; cbn [entries forallb fst].
  - rewrite H1. apply IH, H2.
  - apply IH, H2.
Qed.

Lemma as_strs_map l : as_strs (map VStr l) = Ok l.
Proof. induction l as [|x l IH]; cbn; [reflexivity|]. rewrite IH. reflexivity. Qed.
Lemma rd_strs l : as_str_list (vstrs l) = Ok l.
Proof. apply as_strs_map. Qed.
Lemma rd_ostr o : as_opt_str (match option_map VStr o with Some v => v | None => VNone end) = Ok o.
Proof. destruct o; reflexivity. Qed.
Lemma rd_ostrs o : as_opt_str_list (match option_map vstrs o with Some v => v | None => VNone end) = Ok o.
Proof. destruct o as [l|]; cbn; [|reflexivity]. rewrite as_strs_map. reflexivity. Qed.
Lemma rd_true b : as_bool (match true_entry b with Some v => v | None => VBool false end) = Ok b.
Proof. destruct b; reflexivity. Qed.
Lemma rd_xbool b : as_xbool (match xbool_entry b with Some v => v | None => VStr INHERIT end) = Ok b.
Proof. destruct b; reflexivity. Qed.
Lemma rd_sep b : as_sep (match sep_entry b with Some v => v | None => VStr INHERIT end) = Ok b.
Proof. destruct b; reflexivity. Qed.
Lemma match_id {A} (o : option A) : match o with Some v => Some v | None => None end = o.
Proof. destruct o; reflexivity. Qed.

Ltac entry_keys :=
  unfold getd;
  repeat (rewrite vget_entries;
          match goal with |- context [if str_eqb ?a ?b then _ else _] =>
            let v := eval vm_compute in (str_eqb a b) in
            replace (str_eqb a b) with v by (vm_compute; reflexivity); cbv iota
          end);
  rewrite ?vget_nil, ?match_id.

Lemma add_option_exported c o : wf_opt o -> o_complete o <> Some [] ->
  add_option_dict c (option_to_dictionary o) = Ok (set_options c (c_options c ++ [o])).
Proof.
  intros Hw Hc. unfold add_option_dict, option_to_dictionary.
  rewrite validate_entries by reflexivity. cbn [bind].
  entry_keys. rewrite rd_strs, !rd_ostr, !rd_true, rd_ostrs, rd_xbool, rd_sep. cbn [bind].
  assert (E : as_opt_list (match match o_complete o with Some l => list_entry VList l | None => None end
                           with Some v => v | None => VNone end) = Ok (o_complete o)).
  { destruct (o_complete o) as [[|x l]|]; [congruence|reflexivity|reflexivity]. }
  rewrite E. cbn [bind]. unfold add_option.
  replace (MkOpt _ _ _ _ _ _ _ _ _ _ _ _ _) with o by (destruct o; reflexivity).
  unfold wf_opt in Hw. rewrite Hw. reflexivity.
Qed.

Lemma add_positional_exported c p : wf_pos p ->
  add_positional_dict c (positional_to_dictionary p) = Ok (set_positionals c (c_positionals c ++ [p])).
Proof.
  intros Hw. unfold add_positional_dict, positional_to_dictionary.
  rewrite validate_entries by reflexivity. cbn [bind].
  entry_keys. rewrite !rd_ostr, !rd_true. cbn [as_int bind].
  unfold wf_pos in Hw.
  assert (E : as_opt_list (match list_entry VList (p_complete p) with Some v => v | None => VNone end)
              = Ok (Some (p_complete p))).
  { destruct p as [n mv hp co ns rp wh ca]; cbn [p_complete p_number p_metavar p_help p_nosort p_repeatable p_when p_capture] in *.
    destruct co as [|x l]; [|reflexivity]. exfalso.
    unfold mk_positional in Hw.
    repeat match type of Hw with (if ?b then _ else _) = _ => destruct b; [discriminate|] end.
    discriminate. }
  rewrite E. cbn [bind]. rewrite Hw. reflexivity.
Qed.

Lemma fold_options_exported os c : Forall wf_opt os -> (forall o, In o os -> o_complete o <> Some []) ->
  fold_res add_option_dict (map option_to_dictionary os) c = Ok (set_options c (c_options c ++ os)).
Proof.
  revert c. induction os as [|o os IH]; intros c Hw Hc.
  - cbn. rewrite app_nil_r. destruct c; reflexivity.
  - inversion Hw; subst. cbn [map fold_res].
    rewrite add_option_exported by (try assumption; apply Hc; left; reflexivity). cbn [bind].
    rewrite IH; [|assumption|intros x Hx; apply Hc; right; exact Hx].
    destruct c; cbn. rewrite <- app_assoc. reflexivity.
Qed.
Lemma fold_positionals_exported os c : Forall wf_pos os ->
  fold_res add_positional_dict (map positional_to_dictionary os) c
  = Ok (set_positionals c (c_positionals c ++ os)).
Proof.
  revert c. induction os as [|o os IH]; intros c Hw.
  - cbn. rewrite app_nil_r. destruct c; reflexivity.
  - inversion Hw; subst. cbn [map fold_res].
    rewrite add_positional_exported by assumption. cbn [bind].
    rewrite IH by assumption.
    destruct c; cbn. rewrite <- app_assoc. reflexivity.
Qed.

Definition exported_entries (ps : list cmd) (c : cmd) : list (value * value) :=
  match commandline_to_dictionary ps c with VDict d => d | _ => [] end.

Lemma dictionary_exported ps c : wfc c ->
  (forall o, In o (c_options c) -> o_complete o <> Some []) ->
  dictionary_to_commandline (exported_entries ps c) (c_prog c) = Ok (bare c).
Proof.
  intros Hw Hc. inversion Hw as [c' Hh Ho Hp _ _ Ec]; subst c'.
  unfold dictionary_to_commandline, exported_entries, commandline_to_dictionary.
  rewrite validate_entries by reflexivity. cbn [bind].
  entry_keys. rewrite !rd_ostr, !rd_xbool.
  replace (match list_entry (fun l => VList (map option_to_dictionary l)) (c_options c) with
           | Some v => v | None => VList [] end) with (VList (map option_to_dictionary (c_options c)))
    by (destruct (c_options c); reflexivity).
  replace (match list_entry (fun l => VList (map positional_to_dictionary l)) (c_positionals c) with
           | Some v => v | None => VList [] end) with (VList (map positional_to_dictionary (c_positionals c)))
    by (destruct (c_positionals c); reflexivity).
  cbn [bind].
  replace (as_opt_str_list (match list_entry vstrs (c_aliases c) with
           | Some v => v | None => VList [] end)) with (@inr exn _ (Some (c_aliases c))).
  2:{ destruct (c_aliases c) as [|x l]; [reflexivity|]. unfold list_entry, as_opt_str_list, vstrs.
      cbn [as_str_list]. rewrite as_strs_map. reflexivity. }
  cbn [bind]. unfold wf_head in Hh. rewrite Hh. cbn [bind].
  rewrite fold_options_exported by assumption. cbn [bind c_options app set_options].
  rewrite fold_positionals_exported by assumption. destruct c; reflexivity.
Qed.

(** ** Paths *)
Lemma one_word_forallb w : one_word w -> forallb (fun c => negb (is_space c)) w = true.
Proof. intros [_ H]. apply forallb_forall. intros c Hc. rewrite (H c Hc). reflexivity. Qed.

Lemma split_ws_join ws : ws <> [] -> (forall w, In w ws -> one_word w) ->
  split_ws (join [SP] ws) = ws.
Proof.
  intros Hn H. rewrite split_ws_split.
  - rewrite split_join_c; [|exact Hn|].
    + apply filter_all. intros w Hw. destruct (H w Hw) as [Hw' _]. destruct w; [congruence|reflexivity].
    + intros w Hw Hs. destruct (H w Hw) as [_ Hx]. apply Hx in Hs. vm_compute in Hs. discriminate.
  - clear Hn. induction ws as [|w ws IH]; [intros c []|].
    intros c Hc Hs. destruct ws as [|w' ws].
    + cbn in Hc. destruct (H w (or_introl eq_refl)) as [_ Hx]. rewrite (Hx c Hc) in Hs. discriminate.
    + rewrite join_cons in Hc. apply in_app_or in Hc as [Hc|Hc].
      * destruct (H w (or_introl eq_refl)) as [_ Hx]. rewrite (Hx c Hc) in Hs. discriminate.
      * apply in_app_or in Hc as [[<-|[]]|Hc]; [reflexivity|].
        apply IH; [intros x Hx; apply H; right; exact Hx|exact Hc|exact Hs].
Qed.

Lemma validate_prog_join ws : ws <> [] -> (forall w, In w ws -> one_word w) ->
  validate_prog (join [SP] ws) = Ok tt.
Proof.
  intros Hn H. apply validate_prog_iff.
  assert (Hsp : forall w, In w ws -> ~ In SP w).
  { intros w Hw Hs. destruct (H w Hw) as [_ Hx]. apply Hx in Hs. vm_compute in Hs. discriminate. }
  assert (Hch : forall c, In c (join [SP] ws) -> c = SP \/ is_space c = false).
  { clear Hn Hsp. induction ws as [|w ws IH]; [intros c []|].
    intros c Hc. destruct ws as [|w' ws].
    + right. apply (H w (or_introl eq_refl)). exact Hc.
    + rewrite join_cons in Hc. apply in_app_or in Hc as [Hc|Hc].
      * right. apply (H w (or_introl eq_refl)). exact Hc.
      * apply in_app_or in Hc as [[<-|[]]|Hc]; [left; reflexivity|].
        apply IH; [intros x Hx; apply H; right; exact Hx|exact Hc]. }
  split; [|split; [|split]].
  - rewrite split_join_c by assumption. intros w Hw. apply H, Hw.
  - intros Ht. destruct (Hch _ Ht) as [E|E]; vm_compute in E; discriminate.
  - intros Ht. destruct (Hch _ Ht) as [E|E]; vm_compute in E; discriminate.
  - destruct ws as [|w ws]; [congruence|].
    destruct (H w (or_introl eq_refl)) as [Hw Hx]. destruct w as [|c w]; [congruence|].
    exists c. split; [|apply Hx; left; reflexivity].
    destruct ws; [left; reflexivity|]. rewrite join_cons. left. reflexivity.
Qed.

Lemma command_path_eq ps c : get_command_path ps c = join [SP] (path_of ps c).
Proof. unfold get_command_path, path_of, get_parents. rewrite parents_loop_eq, app_nil_r. reflexivity. Qed.

(** ** Updating trees *)
Lemma update_child_ext n f g l : (forall x, f x = g x) -> update_child n f l = update_child n g l.
Proof.
  intros H. induction l as [|c l IH]; cbn; [reflexivity|]. rewrite H, IH. reflexivity.
Qed.
Lemma update_at_ext p f g c : (forall x, f x = g x) -> update_at p f c = update_at p g c.
Proof.
  intros H. revert c. induction p as [|n p IH]; intros c; cbn; [apply H|].
  destruct (c_subcommands c); [|reflexivity]. rewrite (update_child_ext _ _ _ _ IH). reflexivity.
Qed.

Lemma add_child_ok new c c' : add_child new c = Ok c' <->
  c' = set_subcommands c (Some (subs c ++ [new])) /\ ~ In (c_prog new) (map c_prog (subs c)).
Proof.
  unfold add_child, subs. set (l := match c_subcommands c with Some l => l | None => [] end).
  destruct (add_commandline_object l new) as [e|l'] eqn:E.
  - split; [discriminate|]. intros [_ H].
    assert (E' : add_commandline_object l new = Ok (l ++ [new])) by (apply add_object_ok; auto).
    congruence.
  - apply add_object_ok in E as [-> Hn]. split.
    + intros H. injection H as <-. auto.
    + intros [-> _]. reflexivity.
Qed.

Lemma set_subcommands_prog c x : c_prog (set_subcommands c x) = c_prog c.
Proof. destruct c; reflexivity. Qed.
Lemma subcommands_set c x : c_subcommands (set_subcommands c x) = x.
Proof. destruct c; reflexivity. Qed.
Lemma set_subcommands_same c : set_subcommands c (c_subcommands c) = c.
Proof. destruct c; reflexivity. Qed.

Lemma update_child_app n f l x : ~ In n (map c_prog l) -> c_prog x = n ->
  update_child n f (l ++ [x]) = do y <- f x; Ok (l ++ [y]).
Proof.
  intros H Hx. induction l as [|c l IH]; cbn.
  - rewrite Hx, str_eqb_refl. reflexivity.
  - destruct (str_eqb_spec (c_prog c) n) as [E|E]; [exfalso; apply H; left; exact E|].
    rewrite IH by (intros Hi; apply H; right; exact Hi). destruct (f x); reflexivity.
Qed.

(** A child added at a path and changed afterwards. *)
Lemma update_child_fuse n f g h l l' :
  (forall x x', f x = Ok x' -> c_prog x' = c_prog x) ->
  (forall x x', f x = Ok x' -> g x' = h x) ->
  update_child n f l = Ok l' -> update_child n g l' = update_child n h l.
Proof.
  intros Hp Hf. revert l'. induction l as [|c l IH]; intros l'; cbn [update_child]; [discriminate|].
  destruct (str_eqb (c_prog c) n) eqn:E.
  - destruct (f c) as [e|c'] eqn:Ef; cbn [bind]; [discriminate|]. intros H. injection H as <-.
    cbn [update_child]. rewrite (Hp _ _ Ef), E, (Hf _ _ Ef). reflexivity.
  - destruct (update_child n f l) as [e|r] eqn:Er; cbn [bind]; [discriminate|]. intros H. injection H as <-.
    cbn [update_child]. rewrite E, (IH r eq_refl). reflexivity.
Qed.

Lemma update_at_prog p f c c' : (forall x x', f x = Ok x' -> c_prog x' = c_prog x) ->
  update_at p f c = Ok c' -> c_prog c' = c_prog c.
Proof.
  intros Hf. destruct p as [|n p]; cbn; [apply Hf|].
  destruct (c_subcommands c) as [l|]; [|discriminate].
  destruct (update_child n (update_at p f) l) as [e|l']; cbn [bind]; [discriminate|].
  intros H. injection H as <-. apply set_subcommands_prog.
Qed.
Lemma add_child_prog new x x' : add_child new x = Ok x' -> c_prog x' = c_prog x.
Proof. intros H. apply add_child_ok in H as [-> _]. apply set_subcommands_prog. Qed.

Lemma update_fuse P x y g T T1 : update_at P (add_child x) T = Ok T1 ->
  g x = Ok y -> c_prog y = c_prog x ->
  update_at (P ++ [c_prog x]) g T1 = update_at P (add_child y) T.
Proof.
  intros H Hg Hy. revert T T1 H. induction P as [|n P IH]; intros T T1 H.
  - cbn [update_at app] in *. apply add_child_ok in H as [-> Hn]. rewrite subcommands_set.
    rewrite update_child_app by (try assumption; reflexivity).
    rewrite Hg. cbn [bind]. symmetry. rewrite set_set_subcommands. apply add_child_ok.
    rewrite Hy. split; [reflexivity|exact Hn].
  - cbn [update_at app] in *. destruct (c_subcommands T) as [l|] eqn:El; [|discriminate].
    destruct (update_child n (update_at P (add_child x)) l) as [e|l'] eqn:E; cbn [bind] in H; [discriminate|].
    injection H as <-. rewrite subcommands_set.
    rewrite (update_child_fuse n (update_at P (add_child x)) (update_at (P ++ [c_prog x]) g)
               (update_at P (add_child y)) l l').
    + destruct (update_child n (update_at P (add_child y)) l); cbn [bind]; [reflexivity|].
      rewrite set_set_subcommands. reflexivity.
    + intros a a' Ha. apply (update_at_prog P _ _ _ (add_child_prog x) Ha).
    + intros a a' Ha. apply IH, Ha.
    + exact E.
Qed.

Lemma update_child_transfer n f g l : (forall x, (exists r, f x = Ok r) -> exists r, g x = Ok r) ->
  (exists r, update_child n f l = Ok r) -> exists r, update_child n g l = Ok r.
Proof.
  intros H. induction l as [|c l IH]; cbn; intros [r E]; [discriminate|].
  destruct (str_eqb (c_prog c) n).
  - destruct (f c) as [e|c'] eqn:Ef; [discriminate|]. destruct (H c) as [r' ->]; [eauto|]. cbn. eauto.
  - destruct (update_child n f l) as [e|r'] eqn:Ef; [discriminate|]. destruct IH as [r2 ->]; [eauto|]. cbn. eauto.
Qed.
(** Adding succeeds or fails depending on the name only. *)
Lemma add_at_transfer P x y T : c_prog x = c_prog y ->
  (exists T', update_at P (add_child x) T = Ok T') -> exists T', update_at P (add_child y) T = Ok T'.
Proof.
  intros Hp. revert T. induction P as [|n P IH]; intros T [T' H]; cbn [update_at] in *.
  - apply add_child_ok in H as [-> H]. rewrite Hp in H.
    eexists. apply add_child_ok. split; [reflexivity|exact H].
  - destruct (c_subcommands T) as [l|]; [|discriminate].
    destruct (update_child n (update_at P (add_child x)) l) as [e|l'] eqn:E; cbn [bind] in H; [discriminate|].
    destruct (update_child_transfer n _ (update_at P (add_child y)) l IH) as [r ->]; [eauto|]. cbn. eauto.
Qed.

(** ** Round trip *)
Lemma visit_eq ps c : visit_commandlines ps c =
  (ps, c) :: flat_map (visit_commandlines (c :: ps)) (subs c).
Proof.
  destruct c as [a b c0 d e f g h i [l|]]; cbn [visit_commandlines subs c_subcommands]; [|reflexivity].
  reflexivity.
Qed.

Definition export (pc : list cmd * cmd) : value := commandline_to_dictionary (fst pc) (snd pc).

Lemma add_definition_exported T ps c : wfc c ->
  (forall o, In o (c_options c) -> o_complete o <> Some []) ->
  (forall w, In w (path_of ps c) -> one_word w) ->
  add_definition T (export (ps, c)) = update_at (map c_prog (rev ps)) (add_child (bare c)) T.
Proof.
  intros Hw Ho Hp. unfold add_definition, export, check_prog_in_dictionary. cbn [fst snd].
  assert (Hn : path_of ps c <> []) by (unfold path_of; cbn; rewrite map_app; destruct (map c_prog (rev ps)); discriminate).
  replace (commandline_to_dictionary ps c) with (VDict (exported_entries ps c)) by reflexivity.
  replace (vget (s "prog") (exported_entries ps c)) with (Some (VStr (join [SP] (path_of ps c)))).
  2:{ rewrite <- command_path_eq. reflexivity. }
  rewrite validate_prog_join by assumption. cbn [bind].
  rewrite split_ws_join by assumption. unfold path_of at 1. cbn [rev]. rewrite map_app, rev_app_distr.
  cbn [map rev app]. rewrite rev_involutive.
  apply update_at_ext. intros x. rewrite dictionary_exported by assumption. reflexivity.
Qed.

Lemma fold_res_app {A B} (f : A -> B -> res A) l1 l2 a :
  fold_res f (l1 ++ l2) a = do a' <- fold_res f l1 a; fold_res f l2 a'.
Proof.
  revert a. induction l1 as [|x l1 IH]; intros a; cbn; [reflexivity|].
  destruct (f a x); cbn; [reflexivity|apply IH].
Qed.

Lemma import_subtree root : built root -> expressible root -> forall n ps c T T',
  size c < n -> located root ps c ->
  update_at (map c_prog (rev ps)) (add_child c) T = Ok T' ->
  fold_res add_definition (map export (visit_commandlines ps c)) T = Ok T'.
Proof.
  intros Hb Hex. induction n as [|n IH]; intros ps c T T' Hs Hl H; [lia|].
  assert (Hwf : wfc root) by (apply built_wfc, Hb).
  destruct (located_wfc _ _ _ Hwf Hl) as [Hc Hps].
  assert (Hnames : forall w, In w (path_of ps c) -> one_word w).
  { unfold path_of. intros w Hw. apply in_map_iff in Hw as [x [<- Hx]]. apply in_rev in Hx.
    assert (HA : forall ps c, located root ps c -> forall x, In x (c :: ps) -> exists ps', located root ps' x).
    { clear. induction 1 as [|ps c sub Hl IH Hin]; intros x [<-|Hx].
      - exists []. constructor.
      - destruct Hx.
      - exists (c :: ps). constructor; assumption.
      - apply IH, Hx. }
    destruct (HA _ _ Hl x Hx) as [ps' Hl']. apply (ex_name _ Hex _ _ Hl'). }
  rewrite visit_eq. cbn [map fold_res].
  rewrite add_definition_exported;
    [|exact Hc|intros o Ho; apply (ex_complete _ Hex _ _ _ Hl Ho)|exact Hnames].
  destruct (add_at_transfer (map c_prog (rev ps)) c (bare c) T) as [T1 H1];
    [unfold bare; rewrite set_subcommands_prog; reflexivity|eauto|].
  rewrite H1. cbn [bind].
  (* the subcommands, one after the other *)
  assert (HH : forall l2 l1, subs c = l1 ++ l2 ->
    forall T2, update_at (map c_prog (rev ps)) (add_child (set_subcommands c (match l1 with [] => None | _ => Some l1 end))) T = Ok T2 ->
    exists T3, update_at (map c_prog (rev ps))
      (add_child (set_subcommands c (match subs c with [] => None | l => Some l end))) T = Ok T3 /\
    fold_res add_definition (map export (flat_map (visit_commandlines (c :: ps)) l2)) T2 = Ok T3).
  { assert (Hnd : NoDup (map c_prog (subs c))) by (inversion Hc; assumption).
    induction l2 as [|x l2 IH2]; intros l1 El T2 H2.
    - rewrite app_nil_r in El. rewrite El. exists T2. split; [destruct l1; exact H2|reflexivity].
    - cbn [flat_map]. rewrite map_app, fold_res_app.
      set (c1 := set_subcommands c (match l1 with [] => None | _ => Some l1 end)) in *.
      assert (Es : subs c1 = l1).
      { unfold c1, subs. rewrite subcommands_set. destruct l1; reflexivity. }
      set (c2 := set_subcommands c (Some (l1 ++ [x]))).
      assert (Hadd : add_child x c1 = Ok c2).
      { apply add_child_ok. rewrite Es. unfold c1, c2. rewrite set_set_subcommands. split; [reflexivity|].
        rewrite El, map_app in Hnd. cbn in Hnd. apply NoDup_remove_2 in Hnd. intros Hi. apply Hnd.
        apply in_or_app. left; exact Hi. }
      assert (Hpath : map c_prog (rev (c :: ps)) = map c_prog (rev ps) ++ [c_prog c1]).
      { cbn [rev]. rewrite map_app. unfold c1. rewrite set_subcommands_prog. reflexivity. }
      pose proof (update_fuse _ c1 c2 (add_child x) T T2 H2 Hadd) as F.
      rewrite <- Hpath in F.
      assert (Hpr : c_prog c2 = c_prog c1) by (unfold c1, c2; rewrite !set_subcommands_prog; reflexivity).
      specialize (F Hpr).
      destruct (add_at_transfer (map c_prog (rev ps)) c1 c2 T) as [T2' H2'];
        [unfold c1, c2; rewrite !set_subcommands_prog; reflexivity|eauto|].
      rewrite H2' in F.
      assert (Hin : In x (subs c)) by (rewrite El; apply in_or_app; right; left; reflexivity).
      rewrite (IH (c :: ps) x T2 T2');
        [|pose proof (size_sub _ _ Hin); lia|constructor; assumption|exact F].
      cbn [bind]. apply (IH2 (l1 ++ [x])).
      + rewrite <- app_assoc. exact El.
      + unfold c2 in H2'. destruct l1; exact H2'. }
  destruct (HH (subs c) [] eq_refl T1) as [T3 [H3 H4]]; [exact H1|].
  rewrite H4. f_equal.
  replace (set_subcommands c (match subs c with [] => None | l => Some l end)) with c in H3; [congruence|].
  unfold subs. pose proof (ex_subs _ Hex _ _ Hl) as Hne.
  destruct c as [? ? ? ? ? ? ? ? ? [[|y l]|]]; cbn in *; [congruence|reflexivity|reflexivity].
Qed.

Lemma dset_same {V} k (v : V) d : dget value_eqb k d = Some v -> dset value_eqb k v d = d.
Proof.
  induction d as [|[k' v'] d IH]; cbn; [discriminate|].
  destruct (value_eqb k k'); [intros H; injection H as ->; reflexivity|]. intros H. rewrite IH by exact H. reflexivity.
Qed.

Lemma fix_option_exported o : fix_option (option_to_dictionary o) = option_to_dictionary o.
Proof.
  unfold fix_option, option_to_dictionary.
  replace (vget (s "group") _) with (@None value); [reflexivity|]. symmetry. entry_keys. reflexivity.
Qed.

Lemma fix_exported ps c : fix_commandline (commandline_to_dictionary ps c) = commandline_to_dictionary ps c.
Proof.
  change (commandline_to_dictionary ps c) with (VDict (exported_entries ps c)).
  unfold fix_commandline.
  destruct (vget (s "options") (exported_entries ps c)) as [v|] eqn:E; [|reflexivity].
  assert (Hv : v = VList (map option_to_dictionary (c_options c))).
  { revert E. unfold exported_entries, commandline_to_dictionary. entry_keys.
    destruct (c_options c); cbn [list_entry]; congruence. }
  rewrite Hv, map_map, (map_ext _ option_to_dictionary fix_option_exported), <- Hv.
  rewrite dset_same by exact E. reflexivity.
Qed.

Lemma is_defines_exported ps c : c_prog (last ps c) <> s "%defines%" ->
  is_defines (commandline_to_dictionary ps c) = false.
Proof.
  intros H. unfold is_defines, commandline_to_dictionary. entry_keys.
  destruct (str_eqb_spec (get_command_path ps c) (s "%defines%")) as [E|E]; [|reflexivity].
  exfalso. rewrite command_path_eq in E. unfold path_of in E.
  destruct ps as [|p ps]; [cbn in E; apply H; exact E|].
  assert (Hin : In SP (join [SP] (map c_prog (rev (c :: p :: ps))))).
  { cbn [rev]. rewrite !map_app. cbn [map]. rewrite join_snoc by (destruct (map c_prog (rev ps)); discriminate).
    apply in_or_app. right. left. reflexivity. }
  rewrite E in Hin. vm_compute in Hin. repeat (destruct Hin as [Hin|Hin]; [discriminate|]). destruct Hin.
Qed.

Lemma split_defines_none docs : (forall v, In v docs -> is_defines v = false) -> split_defines docs = None.
Proof.
  induction docs as [|v docs IH]; intros H; cbn [split_defines]; [reflexivity|].
  rewrite IH by (intros x Hx; apply H; right; exact Hx).
  destruct v; try reflexivity. rewrite (H _ (or_introl eq_refl)). reflexivity.
Qed.

Lemma visit_located root ps c : located root ps c -> forall n x qs, size c < n ->
  In (qs, x) (visit_commandlines ps c) -> located root qs x /\ c_prog (last qs x) = c_prog (last ps c).
Proof.
  intros Hl n. revert ps c Hl. induction n as [|n IH]; intros ps c Hl x qs Hs H; [lia|].
  rewrite visit_eq in H. destruct H as [H|H]; [injection H as <- <-; auto|].
  apply in_flat_map in H as [y [Hy H]].
  apply IH in H.
  - destruct H as [H1 H2]. split; [exact H1|]. rewrite H2. f_equal. clear. revert c y.
    induction ps as [|p ps IH]; intros c y; [reflexivity|].
    change (last (c :: p :: ps) y) with (last (p :: ps) y). rewrite (IH p y). destruct ps; [reflexivity|].
    cbn [last]. clear IH. generalize c0 as q. induction ps as [|p' ps IH]; intros q; [reflexivity|]. apply IH.
  - constructor; assumption.
  - pose proof (size_sub _ _ Hy). lia.
Qed.

Lemma round_trip c : built c -> expressible c ->
  dictionaries_to_commandline (commandline_to_dictionaries c) = Ok c.
Proof.
  intros Hb He. unfold dictionaries_to_commandline, prepare, replace_defines_in_documents.
  assert (Hd : forall v, In v (commandline_to_dictionaries c) -> is_defines v = false).
  { intros v Hv. apply in_map_iff in Hv as [[qs x] [<- Hx]].
    destruct (visit_located c [] c (located_root c) (S (size c)) x qs) as [H1 H2]; [lia|exact Hx|].
    apply is_defines_exported. cbn [fst snd]. rewrite H2. apply (ex_root _ He). }
  rewrite split_defines_none by exact Hd.
  unfold commandline_to_dictionaries. rewrite map_map.
  rewrite (map_ext _ export) by (intros pc; apply fix_exported).
  rewrite (import_subtree c Hb He (S (size c)) [] c root0 (set_subcommands root0 (Some [c])));
    [reflexivity|lia|constructor|].
  apply add_child_ok. split; [reflexivity|]. intros [].
Qed.

(** ** Import *)
Fixpoint lookup (c : cmd) (q : list str) : option cmd :=
  match q with
  | [] => Some c
  | n :: q' => match get_subcommand_by_name (subs c) n with
               | Some x => lookup x q'
               | None => None
               end
  end.

Lemma lookup_app c q r : lookup c (q ++ r) = match lookup c q with Some x => lookup x r | None => None end.
Proof.
  revert c. induction q as [|n q IH]; intros c; cbn; [reflexivity|].
  destruct (get_subcommand_by_name (subs c) n); [apply IH|reflexivity].
Qed.

Lemma get_sub_cons n x l : get_subcommand_by_name (x :: l) n =
  if str_eqb (c_prog x) n then Some x else get_subcommand_by_name l n.
Proof. reflexivity. Qed.
Lemma get_sub_app n l r : get_subcommand_by_name (l ++ r) n =
  match get_subcommand_by_name l n with Some x => Some x | None => get_subcommand_by_name r n end.
Proof.
  induction l as [|x l IH]; cbn [app]; [reflexivity|]. rewrite !get_sub_cons, IH.
  destruct (str_eqb (c_prog x) n); reflexivity.
Qed.

Lemma update_child_ok n f l l' : (forall x x', f x = Ok x' -> c_prog x' = c_prog x) ->
  update_child n f l = Ok l' ->
  exists x y, get_subcommand_by_name l n = Some x /\ f x = Ok y /\
    forall m, get_subcommand_by_name l' m = if str_eqb m n then Some y else get_subcommand_by_name l m.
Proof.
  intros Hf. revert l'. induction l as [|c l IH]; intros l'; cbn [update_child]; [discriminate|].
  destruct (str_eqb_spec (c_prog c) n) as [E|E].
  - destruct (f c) as [e|c'] eqn:Ef; cbn [bind]; [discriminate|]. intros H. injection H as <-.
    exists c, c'. rewrite get_sub_cons, <- E, str_eqb_refl. split; [reflexivity|split; [exact Ef|]].
    intros m. rewrite !get_sub_cons. rewrite (Hf _ _ Ef).
    destruct (str_eqb_spec (c_prog c) m) as [->|E1]; destruct (str_eqb_spec m (c_prog c)) as [E2|E2];
      try reflexivity; try congruence; rewrite str_eqb_refl; reflexivity.
  - destruct (update_child n f l) as [e|r] eqn:Er; cbn [bind]; [discriminate|]. intros H. injection H as <-.
    destruct (IH r eq_refl) as (x & y & H1 & H2 & H3). exists x, y.
    rewrite get_sub_cons. destruct (str_eqb_spec (c_prog c) n); [congruence|].
    split; [exact H1|split; [exact H2|]]. intros m. rewrite !get_sub_cons, H3.
    destruct (str_eqb_spec (c_prog c) m) as [<-|E1]; [|reflexivity].
    destruct (str_eqb_spec (c_prog c) n); [congruence|reflexivity].
Qed.

Definition path_eqb (a b : list str) : bool := list_eqb str_eqb a b.
Lemma path_eqb_spec a b : reflect (a = b) (path_eqb a b).
Proof.
  unfold path_eqb. destruct (list_eqb str_eqb a b) eqn:E; constructor.
  - apply list_eqb_strs, E.
  - intros H. apply list_eqb_strs in H. congruence.
Qed.

Lemma bare_set c x : bare (set_subcommands c x) = bare c.
Proof. apply set_set_subcommands. Qed.

Lemma lookup_add P new : forall T T', c_subcommands new = None ->
  update_at P (add_child new) T = Ok T' ->
  (exists x, lookup T P = Some x) /\ lookup T (P ++ [c_prog new]) = None /\
  forall q, option_map bare (lookup T' q) =
    if path_eqb q (P ++ [c_prog new]) then Some (bare new) else option_map bare (lookup T q).
Proof.
  induction P as [|n P IH]; intros T T' Hn H; cbn [update_at] in H.
  - apply add_child_ok in H as [-> Hni]. apply find_none_prog in Hni.
    split; [eexists; reflexivity|]. split; [cbn [app lookup]; rewrite Hni; reflexivity|].
    intros [|m q].
    + cbn [lookup option_map app path_eqb list_eqb]. rewrite bare_set. reflexivity.
    + cbn [lookup app]. unfold subs at 1. rewrite subcommands_set, get_sub_app.
      destruct (get_subcommand_by_name (subs T) m) as [x|] eqn:E.
      * destruct (path_eqb_spec (m :: q) [c_prog new]) as [Eq|_]; [|reflexivity].
        injection Eq as -> ->. congruence.
      * rewrite get_sub_cons. destruct (str_eqb_spec (c_prog new) m) as [<-|Em].
        -- destruct q as [|k q].
           ++ cbn. rewrite str_eqb_refl. reflexivity.
           ++ cbn [lookup]. unfold subs. rewrite Hn. cbn [get_subcommand_by_name find].
              destruct (path_eqb_spec (c_prog new :: k :: q) [c_prog new]); [discriminate|reflexivity].
        -- cbn [get_subcommand_by_name find].
           destruct (path_eqb_spec (m :: q) [c_prog new]); [congruence|reflexivity].
  - destruct (c_subcommands T) as [l|] eqn:El; [|discriminate].
    destruct (update_child n (update_at P (add_child new)) l) as [e|l'] eqn:E; cbn [bind] in H; [discriminate|].
    injection H as <-.
    apply update_child_ok in E; [|intros a a' Ha; apply (update_at_prog P _ _ _ (add_child_prog new) Ha)].
    destruct E as (x & y & E1 & E2 & E3). destruct (IH _ _ Hn E2) as [HA [HB HC]].
    assert (Es : subs T = l) by (unfold subs; rewrite El; reflexivity).
    cbn [app lookup]. rewrite Es, E1. split; [exact HA|split; [exact HB|]].
    intros [|m q].
    + cbn [lookup option_map path_eqb list_eqb]. rewrite bare_set. reflexivity.
    + cbn [lookup]. unfold subs at 1. rewrite subcommands_set, E3, Es.
      destruct (str_eqb_spec m n) as [->|Em].
      * rewrite HC, E1. cbn [path_eqb list_eqb]. rewrite str_eqb_refl. reflexivity.
      * cbn [path_eqb list_eqb]. destruct (str_eqb_spec m n); [congruence|reflexivity].
Qed.

Lemma update_child_some n f l x y : get_subcommand_by_name l n = Some x -> f x = Ok y ->
  exists l', update_child n f l = Ok l'.
Proof.
  induction l as [|c l IH]; cbn [update_child]; [discriminate|]. rewrite get_sub_cons.
  destruct (str_eqb (c_prog c) n); intros H Hf.
  - injection H as ->. rewrite Hf. cbn. eauto.
  - destruct (IH H Hf) as [l' ->]. cbn. eauto.
Qed.

Lemma lookup_add_ok P new : forall T x, lookup T P = Some x -> lookup T (P ++ [c_prog new]) = None ->
  exists T', update_at P (add_child new) T = Ok T'.
Proof.
  induction P as [|n P IH]; intros T x H1 H2; cbn [update_at lookup app] in *.
  - eexists. apply add_child_ok. split; [reflexivity|]. apply find_none_prog.
    destruct (get_subcommand_by_name (subs T) (c_prog new)); [discriminate|reflexivity].
  - destruct (get_subcommand_by_name (subs T) n) as [y|] eqn:E; [|discriminate].
    destruct (IH _ _ H1 H2) as [T' HT]. unfold subs in E.
    destruct (c_subcommands T) as [l|]; [|discriminate].
    destruct (update_child_some _ _ _ _ _ E HT) as [l' ->]. cbn. eauto.
Qed.

(** dictionary_to_commandline builds a command without subcommands. *)
Lemma add_option_dict_some c v c' : add_option_dict c v = Ok c' -> exists o, add_option c o = Ok c'.
Proof.
  unfold add_option_dict. destruct v; try discriminate. intros H.
  repeat match type of H with
         | bind ?r ?f = Ok _ => destruct r; cbn [bind] in H; [discriminate|]
         end.
  eauto.
Qed.
Lemma add_positional_dict_some c v c' : add_positional_dict c v = Ok c' ->
  exists p, add_positional c p = Ok c'.
Proof.
  unfold add_positional_dict. destruct v; try discriminate. intros H.
  do 9 match type of H with
       | bind ?r ?f = Ok _ => destruct r; cbn [bind] in H; [discriminate|]
       end.
  match type of H with bind ?r _ = _ => destruct r as [e|p] eqn:E; cbn [bind] in H; [discriminate|] end.
  injection H as <-. exists p. apply mk_positional_wf in E. unfold add_positional, wf_pos in *. rewrite E. reflexivity.
Qed.
Lemma add_option_head c o c' : add_option c o = Ok c' -> c_prog c' = c_prog c /\ c_subcommands c' = c_subcommands c.
Proof.
  unfold add_option. destruct (mk_option o); cbn [bind]; [discriminate|]. intros H. injection H as <-.
  destruct c; split; reflexivity.
Qed.
Lemma add_positional_head c p c' : add_positional c p = Ok c' -> c_prog c' = c_prog c /\ c_subcommands c' = c_subcommands c.
Proof.
  unfold add_positional. destruct (mk_positional _ _ _ _ _ _ _ _); cbn [bind]; [discriminate|].
  intros H. injection H as <-. destruct c; split; reflexivity.
Qed.

Lemma fold_res_inv {A B} (P : A -> Prop) (f : A -> B -> res A) l :
  (forall a b a', P a -> f a b = Ok a' -> P a') -> forall a a', P a -> fold_res f l a = Ok a' -> P a'.
Proof.
  intros Hf. induction l as [|b l IH]; intros a a' Ha H; cbn in H.
  - injection H as <-. exact Ha.
  - destruct (f a b) as [e|a1] eqn:E; cbn [bind] in H; [discriminate|]. apply (IH a1 a'); [|exact H]. eauto.
Qed.

Lemma dictionary_head d n c : dictionary_to_commandline d n = Ok c ->
  c_prog c = n /\ c_subcommands c = None /\ built c.
Proof.
  unfold dictionary_to_commandline. intros H.
  destruct (validate_keys d command_keys); cbn [bind] in H; [discriminate|].
  destruct (getd (s "options") (VList []) d) as [| | | | |options|]; try discriminate.
  destruct (getd (s "positionals") (VList []) d) as [| | | | |positionals|]; try discriminate.
  do 6 match type of H with
       | bind ?r ?f = Ok _ => destruct r; cbn [bind] in H; [discriminate|]
       end.
  match type of H with bind ?r _ = _ => destruct r as [e|c0] eqn:E0; cbn [bind] in H; [discriminate|] end.
  match type of H with bind ?r _ = _ => destruct r as [e|c1] eqn:E1; cbn [bind] in H; [discriminate|] end.
  set (P := fun c => c_prog c = n /\ c_subcommands c = None /\ built c).
  assert (P0 : P c0).
  { unfold P. split; [|split]; [| |apply (built_new _ _ _ _ _ _ _ _ E0)];
    (unfold mk_commandline in E0;
     repeat match type of E0 with (if ?b then _ else _) = _ => destruct b; [discriminate|] end;
     injection E0 as <-; reflexivity). }
  assert (P1 : P c1).
  { apply (fold_res_inv P _ _) with (3 := E1); [|exact P0].
    intros a b a' [Ha [Hb Hc]] Hs. apply add_option_dict_some in Hs as [oo Ho].
    unfold P. destruct (add_option_head _ _ _ Ho) as [-> ->]. split; [|split]; try assumption.
    apply (built_option _ _ _ Hc Ho). }
  apply (fold_res_inv P _ _) with (3 := H); [|exact P1].
  intros a b a' [Ha [Hb Hc]] Hs. apply add_positional_dict_some in Hs as [oo Ho].
  unfold P. destruct (add_positional_head _ _ _ Ho) as [-> ->]. split; [|split]; try assumption.
  apply (built_positional _ _ _ Hc Ho).
Qed.

Lemma update_child_err n f l l' : (forall x x', f x <> Ok x') -> update_child n f l <> Ok l'.
Proof.
  intros H. revert l'. induction l as [|c l IH]; intros l'; cbn; [discriminate|].
  destruct (str_eqb (c_prog c) n).
  - destruct (f c) eqn:E; [discriminate|]. exfalso. exact (H _ _ E).
  - destruct (update_child n f l) eqn:E; [discriminate|]. exfalso. exact (IH _ eq_refl).
Qed.
Lemma update_at_err p f c c' : (forall x x', f x <> Ok x') -> update_at p f c <> Ok c'.
Proof.
  intros H. revert c c'. induction p as [|n p IH]; intros c c'; cbn; [apply H|].
  destruct (c_subcommands c) as [l|]; [|discriminate].
  destruct (update_child n (update_at p f) l) as [e|l'] eqn:E; [discriminate|].
  exfalso. exact (update_child_err _ _ _ _ IH E).
Qed.

Lemma split_ws_aux_nonempty x : forall cur, (cur <> [] \/ exists c, In c x /\ is_space c = false) ->
  split_ws_aux cur x <> [].
Proof.
  induction x as [|c x IH]; intros cur H; cbn [split_ws_aux].
  - destruct cur; [|discriminate]. destruct H as [H|[c [[] _]]]. congruence.
  - destruct (is_space c) eqn:E.
    + destruct cur as [|d cur]; [|discriminate]. apply IH. right.
      destruct H as [H|[e [[<-|He] Hs]]]; [congruence|congruence|]. exists e. auto.
    + apply IH. left. discriminate.
Qed.
Lemma validate_prog_words p : validate_prog p = Ok tt -> split_ws p <> [].
Proof.
  intros H. apply validate_prog_iff in H as [_ [_ [_ H]]]. apply split_ws_aux_nonempty. right. exact H.
Qed.

Lemma rev_last {A} (l : list A) d : l <> [] -> rev l = last l d :: rev (removelast l).
Proof.
  intros H. rewrite (app_removelast_last d H) at 1. rewrite rev_app_distr. reflexivity.
Qed.

Lemma add_definition_ok T v T' : add_definition T v = Ok T' <->
  exists new, good_doc v new /\ doc_path v <> [] /\ c_prog new = last (doc_path v) [] /\ c_subcommands new = None /\
    built new /\ update_at (removelast (doc_path v)) (add_child new) T = Ok T'.
Proof.
  unfold add_definition, check_prog_in_dictionary, good_doc, doc_path.
  destruct v as [| | | | | |d];
    try (split; [discriminate|intros [new [[d' [p' [H _]]] _]]; discriminate]).
  destruct (vget (s "prog") d) as [[| | | |p| |]|] eqn:E;
    try (cbn [bind]; split; [discriminate|]; intros [new [[d' [p' [H1 [H2 _]]]] _]]; injection H1 as <-; congruence).
  destruct (validate_prog p) as [e|[]] eqn:Ev; cbn [bind].
  { split; [discriminate|]. intros [new [[d' [p' [H1 [H2 [H3 _]]]]] _]]. injection H1 as <-.
    rewrite E in H2. injection H2 as <-. congruence. }
  pose proof (validate_prog_words _ Ev) as Hn.
  rewrite (rev_last _ [] Hn). rewrite rev_involutive.
  destruct (dictionary_to_commandline d (last (split_ws p) [])) as [e|new] eqn:Ed.
  - split.
    + intros H. exfalso. revert H. apply update_at_err. intros x x'. cbn. discriminate.
    + intros [new [[d' [p' [H1 [H2 [_ H3]]]]] _]]. injection H1 as <-. rewrite E in H2. injection H2 as <-. congruence.
  - destruct (dictionary_head _ _ _ Ed) as [Hp [Hs Hb]].
    rewrite (update_at_ext _ _ (add_child new)) by reflexivity. split.
    + intros H. exists new. repeat split; try assumption. exists d, p. auto.
    + intros [new' [[d' [p' [H1 [H2 [_ H3]]]]] [_ [_ [_ [_ H4]]]]]]. injection H1 as <-. rewrite E in H2. injection H2 as <-.
      congruence.
Qed.

Lemma good_doc_unique v c c' : good_doc v c -> good_doc v c' -> c = c'.
Proof.
  intros [d [p [E1 [E2 [_ E3]]]]] [d' [p' [F1 [F2 [_ F3]]]]]. subst v. injection F1 as <-.
  rewrite E2 in F2. injection F2 as <-. congruence.
Qed.

Definition imported (T : cmd) (docs : list value) : Prop :=
  (forall q x, q <> [] -> lookup T q = Some x -> exists v, In v docs /\ doc_path v = q /\ good_doc v (bare x)) /\
  (forall v, In v docs -> exists x, lookup T (doc_path v) = Some x) /\
  (forall v, In v docs -> doc_path v <> [] /\ exists c, good_doc v c) /\
  NoDup (map doc_path docs) /\ after_parent docs /\ built T /\ (c_subcommands T = None <-> docs = []).

Lemma after_parent_snoc docs v : after_parent (docs ++ [v]) <->
  after_parent docs /\ (removelast (doc_path v) = [] \/ In (removelast (doc_path v)) (map doc_path docs)).
Proof.
  unfold after_parent. split.
  - intros H. split.
    + intros before w after E. apply (H before w (after ++ [v])). rewrite E, <- app_assoc. reflexivity.
    + apply (H docs v []). reflexivity.
  - intros [H1 H2] before w after E. destruct after as [|a after] using rev_ind.
    + apply app_inj_tail in E as [-> ->]. exact H2.
    + clear IHafter. change (before ++ w :: after ++ [a]) with (before ++ (w :: after) ++ [a]) in E.
      rewrite app_assoc in E. apply app_inj_tail in E as [-> _]. apply (H1 before w after eq_refl).
Qed.

Lemma built_update_child n f l : (forall x x', built x -> f x = Ok x' -> built x' /\ c_prog x' = c_prog x) ->
  Forall built l -> forall l', update_child n f l = Ok l' -> Forall built l' /\ map c_prog l' = map c_prog l.
Proof.
  intros Hf. induction l as [|c l IH]; intros Hl l'; cbn [update_child]; [discriminate|].
  inversion Hl; subst. destruct (str_eqb (c_prog c) n).
  - destruct (f c) as [e|c'] eqn:E; cbn [bind]; [discriminate|]. intros H. injection H as <-.
    destruct (Hf _ _ H1 E) as [Hb Hp]. split; [constructor; assumption|]. cbn. rewrite Hp. reflexivity.
  - destruct (update_child n f l) as [e|r] eqn:E; cbn [bind]; [discriminate|]. intros H. injection H as <-.
    destruct (IH H2 r eq_refl) as [Hb Hp]. split; [constructor; assumption|]. cbn. rewrite Hp. reflexivity.
Qed.

(** Replacing the subcommands by built ones of different names. *)
Lemma wfc_set_subcommands c l : wfc c -> NoDup (map c_prog l) -> (forall x, In x l -> wfc x) ->
  wfc (set_subcommands c (Some l)).
Proof.
  intros H Hn Hl. inversion H as [c' Hh Ho Hp Hd Hs E]; subst c'. destruct c; constructor; cbn in *; assumption.
Qed.
Lemma wfc_built c : wfc c -> built c.
Proof. intros H. apply built_iff_copy, copy_wfc, H. Qed.

Lemma update_at_built P new : forall T T', built T -> built new ->
  update_at P (add_child new) T = Ok T' -> built T' /\ c_prog T' = c_prog T.
Proof.
  induction P as [|n P IH]; intros T T' HT Hn H; cbn [update_at] in H.
  - split; [|apply (add_child_prog _ _ _ H)]. apply add_child_ok in H as [-> H].
    apply wfc_built, wfc_set_subcommands; [apply built_wfc, HT| |].
    + rewrite map_app. apply NoDup_snoc; [|exact H]. apply built_wfc in HT. inversion HT; assumption.
    + intros x Hx. apply in_app_or in Hx as [Hx|[<-|[]]]; [|apply built_wfc, Hn].
      apply built_wfc in HT. inversion HT; auto.
  - destruct (c_subcommands T) as [l|] eqn:El; [|discriminate].
    destruct (update_child n (update_at P (add_child new)) l) as [e|l'] eqn:E; cbn [bind] in H; [discriminate|].
    injection H as <-. apply built_wfc in HT. inversion HT as [c' Hh Ho Hp Hd Hs Ec]; subst c'.
    assert (Es : subs T = l) by (unfold subs; rewrite El; reflexivity). rewrite Es in *.
    destruct (built_update_child n (update_at P (add_child new)) l) with (l' := l') as [H1 H2].
    + intros x x' Hx Hu. apply (IH _ _ Hx Hn Hu).
    + apply Forall_forall. intros x Hx. apply wfc_built, Hs, Hx.
    + exact E.
    + split; [|apply set_subcommands_prog]. apply wfc_built, wfc_set_subcommands; [exact HT| |].
      * rewrite H2. exact Hd.
      * intros x Hx. rewrite Forall_forall in H1. apply built_wfc, H1, Hx.
Qed.

Lemma update_at_some P new T T' : update_at P (add_child new) T = Ok T' -> c_subcommands T' <> None.
Proof.
  destruct P as [|n P]; cbn [update_at].
  - intros H. apply add_child_ok in H as [-> _]. rewrite subcommands_set. discriminate.
  - destruct (c_subcommands T) as [l|]; [|discriminate].
    destruct (update_child n (update_at P (add_child new)) l); cbn [bind]; [discriminate|].
    intros H. injection H as <-. rewrite subcommands_set. discriminate.
Qed.

Lemma root0_built : built root0.
Proof. apply (built_new (s "root") None [] None XInherit XInherit XInherit). reflexivity. Qed.

Lemma import_imported docs : forall T, fold_res add_definition docs root0 = Ok T -> imported T docs.
Proof.
  induction docs as [|v docs IH] using rev_ind; intros T H.
  - cbn in H. injection H as <-. unfold imported. split; [|split; [|split; [|split; [|split; [|split]]]]].
    + intros [|n q] x Hq Hl; [congruence|]. discriminate.
    + intros v [].
    + intros v [].
    + constructor.
    + intros [|b before] v after E; discriminate.
    + apply root0_built.
    + split; reflexivity.
  - rewrite fold_res_app in H. destruct (fold_res add_definition docs root0) as [e|T0] eqn:E0; cbn [bind] in H; [discriminate|].
    destruct (IH T0 eq_refl) as [I1 [I2 [I3 [I4 [I5 [I6 I7]]]]]]. clear IH.
    cbn [fold_res] in H. destruct (add_definition T0 v) as [e|T1] eqn:E1; cbn [bind] in H; [discriminate|].
    injection H as <-. apply add_definition_ok in E1 as (new & Hg & Hne & Hp & Hs & Hb & Hu).
    assert (Hpath : removelast (doc_path v) ++ [c_prog new] = doc_path v)
      by (rewrite Hp; symmetry; apply app_removelast_last; exact Hne).
    destruct (lookup_add _ _ _ _ Hs Hu) as [H1 [H2 H3]]. rewrite Hpath in *.
    unfold imported. split; [|split; [|split; [|split; [|split; [|split]]]]].
    + intros q x Hq Hl. specialize (H3 q). rewrite Hl in H3. cbn [option_map] in H3.
      destruct (path_eqb_spec q (doc_path v)) as [->|Eq].
      * injection H3 as H3. exists v. split; [apply in_or_app; right; left; reflexivity|]. split; [reflexivity|].
        rewrite H3. destruct new; cbn in Hs |- *. subst. exact Hg.
      * destruct (lookup T0 q) as [x0|] eqn:E; [|discriminate]. injection H3 as H3. rewrite H3.
        destruct (I1 q x0 Hq E) as [w [Hw [Hw2 Hw3]]]. exists w. split; [apply in_or_app; left; exact Hw|]. auto.
    + intros w Hw. specialize (H3 (doc_path w)). destruct (lookup T1 (doc_path w)) as [x|]; [eauto|].
      exfalso. cbn [option_map] in H3. destruct (path_eqb_spec (doc_path w) (doc_path v)) as [E|E]; [discriminate|].
      apply in_app_or in Hw as [Hw|[<-|[]]]; [|congruence]. destruct (I2 w Hw) as [x Hx]. rewrite Hx in H3. discriminate.
    + intros w Hw. apply in_app_or in Hw as [Hw|[<-|[]]]; [auto|]. split; [exact Hne|eauto].
    + rewrite map_app. apply NoDup_snoc; [exact I4|]. intros Hin. apply in_map_iff in Hin as [w [Ew Hw]].
      destruct (I2 w Hw) as [x Hx]. congruence.
    + apply after_parent_snoc. split; [exact I5|].
      destruct (removelast (doc_path v)) as [|n q] eqn:E; [left; reflexivity|right].
      destruct H1 as [x Hx]. destruct (I1 _ x (ltac:(discriminate) : n :: q <> []) Hx) as [w [Hw [Hw2 _]]].
      rewrite <- Hw2. apply in_map, Hw.
    + apply (update_at_built _ _ _ _ I6 Hb Hu).
    + split; [|destruct docs; discriminate]. intros H. exfalso. exact (update_at_some _ _ _ _ Hu H).
Qed.

Lemma import_ok docs : (exists T, fold_res add_definition docs root0 = Ok T) <->
  (forall v, In v docs -> exists c, good_doc v c) /\ NoDup (map doc_path docs) /\ after_parent docs.
Proof.
  split.
  - intros [T H]. destruct (import_imported _ _ H) as [_ [_ [I3 [I4 [I5 _]]]]].
    split; [intros v Hv; apply I3, Hv|]. auto.
  - intros [H1 [H2 H3]]. induction docs as [|v docs IH] using rev_ind; [exists root0; reflexivity|].
    apply after_parent_snoc in H3 as [H3 H4].
    rewrite map_app in H2. cbn in H2. pose proof H2 as H2'. apply NoDup_remove_1 in H2. rewrite app_nil_r in H2.
    apply NoDup_remove_2 in H2'. rewrite app_nil_r in H2'.
    destruct IH as [T HT]; [intros w Hw; apply H1, in_or_app; left; exact Hw|exact H2|exact H3|].
    rewrite fold_res_app, HT. cbn [bind fold_res].
    destruct (import_imported _ _ HT) as [I1 [I2 [I3 [I4 [I5 [I6 I7]]]]]].
    destruct (H1 v) as [new Hg]; [apply in_or_app; right; left; reflexivity|].
    pose proof Hg as Hg'. destruct Hg' as [d [p [Ev [Ep [Ev2 Ed]]]]].
    assert (Hpe : doc_path v = split_ws p) by (subst v; unfold doc_path; rewrite Ep; reflexivity).
    destruct (dictionary_head _ _ _ Ed) as [Hp [Hs Hb]]. rewrite <- Hpe in Hp.
    assert (Hne : doc_path v <> []) by (rewrite Hpe; apply validate_prog_words, Ev2).
    assert (Hpath : removelast (doc_path v) ++ [c_prog new] = doc_path v)
      by (rewrite Hp; symmetry; apply app_removelast_last; exact Hne).
    assert (HL : exists x, lookup T (removelast (doc_path v)) = Some x).
    { destruct H4 as [->|H4]; [exists T; reflexivity|]. apply in_map_iff in H4 as [w [<- Hw]]. apply I2, Hw. }
    destruct HL as [x Hx].
    destruct (lookup_add_ok (removelast (doc_path v)) new T x Hx) as [T' HT'].
    { rewrite Hpath. destruct (lookup T (doc_path v)) as [y|] eqn:E; [|reflexivity].
      destruct (I1 _ _ Hne E) as [w [Hw [Hw2 _]]]. exfalso. apply H2'. rewrite <- Hw2. apply in_map, Hw. }
    destruct (add_definition T v) as [e|T2] eqn:E2; [|cbn; eauto].
    assert (E3 : add_definition T v = Ok T').
    { apply add_definition_ok. exists new. repeat split; assumption. }
    congruence.
Qed.

Lemma length1 {A} (l : list A) : length l = 1 <-> exists x, l = [x].
Proof.
  split; [|intros [x ->]; reflexivity]. destruct l as [|x [|y l]]; cbn; try discriminate. intros _. eauto.
Qed.

Lemma get_sub_unique l x : NoDup (map c_prog l) -> In x l -> get_subcommand_by_name l (c_prog x) = Some x.
Proof.
  induction l as [|y l IH]; [intros _ []|]. intros Hn Hin. rewrite get_sub_cons. cbn in Hn. inversion Hn; subst.
  destruct (str_eqb_spec (c_prog y) (c_prog x)) as [E|E].
  - destruct Hin as [->|Hin]; [reflexivity|]. exfalso. apply H1. rewrite E. apply in_map, Hin.
  - destruct Hin as [->|Hin]; [congruence|]. apply IH; assumption.
Qed.
Lemma get_sub_In l n x : get_subcommand_by_name l n = Some x -> In x l /\ c_prog x = n.
Proof. intros H. apply find_some in H as [H1 H2]. apply str_eqb_eq in H2. auto. Qed.

Lemma lookup1 T n x : built T -> (lookup T [n] = Some x <-> In x (subs T) /\ c_prog x = n).
Proof.
  intros Hb. apply built_wfc in Hb. cbn [lookup].
  assert (Hnd : NoDup (map c_prog (subs T))) by (inversion Hb; assumption).
  destruct (get_subcommand_by_name (subs T) n) as [y|] eqn:E.
  - apply get_sub_In in E as [E1 E2]. split; [intros H; injection H as <-; auto|]. intros [H1 H2].
    f_equal. pose proof (get_sub_unique _ _ Hnd H1) as Ha.
    pose proof (get_sub_unique _ _ Hnd E1) as Hc.
    rewrite E2, <- H2, Ha in Hc. congruence.
  - split; [discriminate|]. intros [H1 H2]. apply find_none_prog in E. exfalso. apply E. rewrite <- H2.
    apply in_map, H1.
Qed.

(** The accepted lists of definitions. *)
Lemma dictionaries_ok docs : (exists c, dictionaries_to_commandline docs = Ok c) <->
  (forall v, In v (prepare docs) -> exists c, good_doc v c) /\ NoDup (map doc_path (prepare docs)) /\
  after_parent (prepare docs) /\ one_main (prepare docs).
Proof.
  unfold dictionaries_to_commandline. generalize (prepare docs) as l. clear docs. intros docs.
  split.
  - intros [c H]. destruct (fold_res add_definition docs root0) as [e|T] eqn:E; cbn [bind] in H; [discriminate|].
    assert (HA : (forall v, In v docs -> exists c, good_doc v c) /\ NoDup (map doc_path docs) /\ after_parent docs)
      by (apply import_ok; eauto).
    destruct HA as [H1 [H2 H3]]. repeat split; try assumption.
    destruct (import_imported _ _ E) as [I1 [I2 [I3 [I4 [I5 [I6 I7]]]]]].
    destruct (c_subcommands T) as [[|c1 [|c2 l]]|] eqn:Es; try discriminate. injection H as ->.
    assert (Hsubs : subs T = [c]) by (unfold subs; rewrite Es; reflexivity).
    assert (Hl : lookup T [c_prog c] = Some c).
    { apply lookup1; [exact I6|]. rewrite Hsubs. split; [left|]; reflexivity. }
    destruct (I1 [c_prog c] c ltac:(discriminate) Hl) as [v [Hv [Hv2 _]]].
    exists v. split; [exact Hv|]. split; [rewrite Hv2; reflexivity|].
    intros v' Hv' Hlen. apply length1 in Hlen as [n Hn]. destruct (I2 v' Hv') as [x Hx].
    rewrite Hn in Hx |- *. apply lookup1 in Hx as [Hx Hx2]; [|exact I6]. rewrite Hsubs in Hx.
    destruct Hx as [<-|[]]. rewrite Hv2. congruence.
  - intros [H1 [H2 [H3 [v [Hv [Hlen Huniq]]]]]].
    assert (HA : exists T, fold_res add_definition docs root0 = Ok T) by (apply import_ok; auto).
    destruct HA as [T E]. rewrite E. cbn [bind].
    destruct (import_imported _ _ E) as [I1 [I2 [I3 [I4 [I5 [I6 I7]]]]]].
    apply length1 in Hlen as [n Hn]. destruct (I2 v Hv) as [x Hx]. rewrite Hn in Hx.
    apply lookup1 in Hx as [Hx Hxn]; [|exact I6].
    assert (Hall : forall y, In y (subs T) -> c_prog y = n).
    { intros y Hy. assert (Hl : lookup T [c_prog y] = Some y) by (apply lookup1; auto).
      destruct (I1 [c_prog y] y ltac:(discriminate) Hl) as [w [Hw [Hw2 _]]].
      assert (Ew : doc_path w = doc_path v) by (apply Huniq; [exact Hw|rewrite Hw2; reflexivity]).
      congruence. }
    assert (Hnd : NoDup (map c_prog (subs T))) by (apply built_wfc in I6; inversion I6; assumption).
    unfold subs in *. destruct (c_subcommands T) as [[|c1 [|c2 l]]|].
    + destruct Hx.
    + eauto.
    + exfalso. cbn in Hnd. inversion Hnd as [|? ? Hni _]; subst. apply Hni. left.
      rewrite (Hall c1) by (left; reflexivity). apply Hall. right. left. reflexivity.
    + destruct Hx.
Qed.

Lemma lookup_located T q : forall x, lookup T q = Some x ->
  exists ps, located T ps x /\ path_of ps x = c_prog T :: q.
Proof.
  induction q as [|n q IH] using rev_ind; intros x H.
  - cbn in H. injection H as <-. exists []. split; [constructor|reflexivity].
  - rewrite lookup_app in H. destruct (lookup T q) as [y|]; [|discriminate].
    destruct (IH y eq_refl) as [ps [H1 H2]]. cbn [lookup] in H.
    destruct (get_subcommand_by_name (subs y) n) as [z|] eqn:E; [|discriminate]. injection H as <-.
    apply get_sub_In in E as [E1 E2]. exists (y :: ps). split; [constructor; assumption|].
    unfold path_of in *. cbn [rev] in *. rewrite !map_app in *. cbn [map] in *. rewrite H2, E2. reflexivity.
Qed.

Lemma located_lookup T ps x : built T -> located T ps x ->
  exists q, path_of ps x = c_prog T :: q /\ lookup T q = Some x.
Proof.
  intros Hb. apply built_wfc in Hb. induction 1 as [|ps c sub Hl [q [IH1 IH2]] Hin].
  - exists []. split; reflexivity.
  - exists (q ++ [c_prog sub]). split.
    + unfold path_of in *. cbn [rev] in *. rewrite !map_app in *. cbn [map] in *. rewrite IH1. reflexivity.
    + rewrite lookup_app, IH2. cbn [lookup].
      destruct (located_wfc _ _ _ Hb Hl) as [Hc _].
      assert (Hnd : NoDup (map c_prog (subs c))) by (inversion Hc; assumption).
      rewrite (get_sub_unique _ _ Hnd Hin). reflexivity.
Qed.

(** What is imported: exactly the defined programs, with the attributes of their definitions. *)
Lemma dictionaries_content docs c : dictionaries_to_commandline docs = Ok c ->
  built c /\
  (forall ps x, located c ps x -> exists v, In v (prepare docs) /\ doc_path v = path_of ps x /\ good_doc v (bare x)) /\
  (forall v, In v (prepare docs) -> exists ps x, located c ps x /\ doc_path v = path_of ps x).
Proof.
  unfold dictionaries_to_commandline. generalize (prepare docs) as l. clear docs. intros docs H.
  destruct (fold_res add_definition docs root0) as [e|T] eqn:E; cbn [bind] in H; [discriminate|].
  destruct (import_imported _ _ E) as [I1 [I2 [I3 [I4 [I5 [I6 I7]]]]]].
  destruct (c_subcommands T) as [[|c1 [|c2 l]]|] eqn:Es; try discriminate. injection H as ->.
  assert (Hsubs : subs T = [c]) by (unfold subs; rewrite Es; reflexivity).
  assert (Hc : built c).
  { apply built_wfc in I6. apply wfc_built. inversion I6 as [? _ _ _ _ Hs]; subst. apply Hs. rewrite Hsubs. left. reflexivity. }
  assert (Hq : forall q, lookup T (c_prog c :: q) = lookup c q).
  { intros q. cbn [lookup]. rewrite Hsubs, get_sub_cons, str_eqb_refl. reflexivity. }
  split; [exact Hc|split].
  - intros ps x Hl. destruct (located_lookup _ _ _ Hc Hl) as [q [H1 H2]]. rewrite <- Hq in H2.
    destruct (I1 (c_prog c :: q) x ltac:(discriminate) H2) as [v [Hv [Hv2 Hv3]]]. exists v. rewrite H1. auto.
  - intros v Hv. destruct (I2 v Hv) as [x Hx]. destruct (I3 v Hv) as [Hne _].
    destruct (doc_path v) as [|n q] eqn:Ep; [congruence|]. cbn [lookup] in Hx. rewrite Hsubs, get_sub_cons in Hx.
    destruct (str_eqb_spec (c_prog c) n) as [<-|En]; [|discriminate].
    destruct (lookup_located _ _ _ Hx) as [ps [H1 H2]]. exists ps, x. auto.
Qed.

(** ** Imported trees are expressible *)
Inductive full : cmd -> Prop :=
| full_intro c : c_subcommands c <> Some [] -> (forall x, In x (subs c) -> full x) -> full c.

Lemma full_none c : c_subcommands c = None -> full c.
Proof. intros H. constructor; [congruence|]. unfold subs. rewrite H. intros x []. Qed.

Lemma full_update_child n f l : (forall x x', full x -> f x = Ok x' -> full x') ->
  (forall x, In x l -> full x) -> forall l', update_child n f l = Ok l' ->
  l' <> [] /\ forall x, In x l' -> full x.
Proof.
  intros Hf. induction l as [|c l IH]; intros Hl l'; cbn [update_child]; [discriminate|].
  destruct (str_eqb (c_prog c) n).
  - destruct (f c) as [e|c'] eqn:E; cbn [bind]; [discriminate|]. intros H. injection H as <-.
    split; [discriminate|]. intros x [<-|Hx]; [|apply Hl; right; exact Hx].
    apply (Hf c c'); [apply Hl; left; reflexivity|exact E].
  - destruct (update_child n f l) as [e|r] eqn:E; cbn [bind]; [discriminate|]. intros H. injection H as <-.
    destruct (IH (fun x Hx => Hl x (or_intror Hx)) r eq_refl) as [_ H].
    split; [discriminate|]. intros x [<-|Hx]; [apply Hl; left; reflexivity|apply H, Hx].
Qed.

Lemma full_set c l : l <> [] -> (forall x, In x l -> full x) -> full (set_subcommands c (Some l)).
Proof.
  intros Hn Hl. constructor.
  - rewrite subcommands_set. congruence.
  - unfold subs. rewrite subcommands_set. exact Hl.
Qed.

Lemma full_update_at P new : forall T T', full T -> full new ->
  update_at P (add_child new) T = Ok T' -> full T'.
Proof.
  induction P as [|n P IH]; intros T T' HT Hn H; cbn [update_at] in H.
  - apply add_child_ok in H as [-> H]. apply full_set; [destruct (subs T); discriminate|].
    intros x Hx. apply in_app_or in Hx as [Hx|[<-|[]]]; [|exact Hn]. inversion HT; auto.
  - destruct (c_subcommands T) as [l|] eqn:El; [|discriminate].
    destruct (update_child n (update_at P (add_child new)) l) as [e|l'] eqn:E; cbn [bind] in H; [discriminate|].
    injection H as <-. destruct (full_update_child n (update_at P (add_child new)) l) with (l' := l') as [H1 H2].
    + intros x x' Hx Hu. apply (IH _ _ Hx Hn Hu).
    + inversion HT as [c' _ Hs Ec]; subst c'. intros x Hx. apply Hs. unfold subs. rewrite El. exact Hx.
    + exact E.
    + apply full_set; assumption.
Qed.

Lemma full_import docs : forall T, fold_res add_definition docs root0 = Ok T -> full T.
Proof.
  intros T H. apply (fold_res_inv full _ _) with (3 := H).
  - intros a b a' Ha Hs. apply add_definition_ok in Hs as (new & _ & _ & _ & Hn & _ & Hu).
    apply (full_update_at _ _ _ _ Ha (full_none _ Hn) Hu).
  - apply full_none. reflexivity.
Qed.

Lemma full_located root ps c : full root -> located root ps c -> full c.
Proof. intros Hf. induction 1 as [|ps c sub Hl IH Hin]; [exact Hf|]. inversion IH; auto. Qed.

Lemma split_ws_words x : forall cur, (forall c, In c cur -> is_space c = false) ->
  forall w, In w (split_ws_aux cur x) -> one_word w.
Proof.
  induction x as [|c x IH]; intros cur Hc w Hw; cbn [split_ws_aux] in Hw.
  - destruct cur as [|d cur]; [destruct Hw|]. destruct Hw as [<-|[]]. split.
    + cbn. destruct (rev cur); discriminate.
    + intros e He. apply Hc, in_rev, He.
  - destruct (is_space c) eqn:E.
    + destruct cur as [|d cur]; [apply (IH [] (fun _ F => match F with end) w Hw)|].
      destruct Hw as [<-|Hw]; [|apply (IH [] (fun _ F => match F with end) w Hw)].
      split; [cbn; destruct (rev cur); discriminate|]. intros e He. apply Hc, in_rev, He.
    + apply (IH (c :: cur)); [|exact Hw]. intros e [<-|He]; [exact E|apply Hc, He].
Qed.
Lemma doc_path_words v w : In w (doc_path v) -> one_word w.
Proof.
  unfold doc_path. destruct v; try (intros []). destruct (vget (s "prog") d) as [[]|]; try (intros []).
  apply split_ws_words. intros c [].
Qed.

Lemma import_expressible docs c : dictionaries_to_commandline docs = Ok c ->
  c_prog c <> s "%defines%" ->
  (forall ps x o, located c ps x -> In o (c_options x) -> o_complete o <> Some []) ->
  expressible c.
Proof.
  intros H Hr Ho. destruct (dictionaries_content _ _ H) as [Hb [H1 H2]].
  constructor; [exact Hr| |exact Ho|].
  - intros ps x Hl. destruct (H1 _ _ Hl) as [v [_ [Hv _]]]. apply (doc_path_words v). rewrite Hv.
    unfold path_of. cbn [rev]. rewrite map_app. apply in_or_app. right. left. reflexivity.
  - intros ps x Hl. unfold dictionaries_to_commandline in H.
    destruct (fold_res add_definition (prepare docs) root0) as [e|T] eqn:E; cbn [bind] in H; [discriminate|].
    pose proof (full_import _ _ E) as Hf.
    destruct (c_subcommands T) as [[|c1 [|c2 l]]|] eqn:Es; try discriminate. injection H as ->.
    assert (Hc : full c).
    { inversion Hf as [c' _ Hs Ec]; subst c'. apply Hs. unfold subs. rewrite Es. left. reflexivity. }
    pose proof (full_located _ _ _ Hc Hl) as Hx. inversion Hx; assumption.
Qed.

Lemma import_export docs c : dictionaries_to_commandline docs = Ok c ->
  c_prog c <> s "%defines%" ->
  (forall ps x o, located c ps x -> In o (c_options x) -> o_complete o <> Some []) ->
  dictionaries_to_commandline (commandline_to_dictionaries c) = Ok c.
Proof.
  intros H Hr Ho. apply round_trip; [apply (dictionaries_content _ _ H)|apply (import_expressible docs); assumption].
Qed.

(** ** Visits *)
Lemma visit_iff c ps x : In (ps, x) (visit_commandlines [] c) <-> located c ps x.
Proof.
  split.
  - intros H. apply (visit_located c [] c (located_root c) (S (size c)) x ps); [lia|exact H].
  - assert (G : forall n qs y, size y < n -> In (qs, y) (visit_commandlines [] c) ->
       forall z, In z (subs y) -> In (y :: qs, z) (visit_commandlines [] c)).
    { assert (G0 : forall n ps0 c0 qs y z, size c0 < n -> In (qs, y) (visit_commandlines ps0 c0) -> In z (subs y) ->
         In (y :: qs, z) (visit_commandlines ps0 c0)).
      { induction n as [|n IH]; intros ps0 c0 qs y z Hs Hy Hz; [lia|].
        rewrite visit_eq in Hy |- *. destruct Hy as [Hy|Hy].
        - injection Hy as <- <-. right. apply in_flat_map. exists z. split; [exact Hz|].
          rewrite visit_eq. left. reflexivity.
        - right. apply in_flat_map in Hy as [u [Hu Hy]]. apply in_flat_map. exists u. split; [exact Hu|].
          apply IH; [pose proof (size_sub _ _ Hu); lia|exact Hy|exact Hz]. }
      intros n qs y _ Hy z Hz. apply (G0 (S (size c))); [lia|exact Hy|exact Hz]. }
    induction 1 as [|ps y sub Hl IH Hin]; [rewrite visit_eq; left; reflexivity|].
    apply (G (S (size y)) ps y); [lia|exact IH|exact Hin].
Qed.

Lemma visit_prefix n : forall ps c qs x, size c < n -> In (qs, x) (visit_commandlines ps c) ->
  exists r, path_of qs x = path_of ps c ++ r.
Proof.
  induction n as [|n IH]; intros ps c qs x Hs H; [lia|]. rewrite visit_eq in H. destruct H as [H|H].
  - injection H as <- <-. exists []. rewrite app_nil_r. reflexivity.
  - apply in_flat_map in H as [y [Hy H]]. apply IH in H; [|pose proof (size_sub _ _ Hy); lia].
    destruct H as [r Hr]. exists (c_prog y :: r). rewrite Hr. unfold path_of. cbn [rev]. rewrite !map_app.
    rewrite <- !app_assoc. reflexivity.
Qed.

Lemma NoDup_app_intro {A} (a b : list A) : NoDup a -> NoDup b -> (forall x, In x a -> ~ In x b) -> NoDup (a ++ b).
Proof.
  intros Ha Hb H. induction a as [|x a IH]; cbn; [exact Hb|]. inversion Ha; subst. constructor.
  - rewrite in_app_iff. intros [Hx|Hx]; [tauto|]. apply (H x); [left; reflexivity|exact Hx].
  - apply IH; [assumption|]. intros y Hy. apply H. right. exact Hy.
Qed.

Lemma visit_paths_NoDup n : forall ps c, size c < n -> wfc c ->
  NoDup (map (fun pc => path_of (fst pc) (snd pc)) (visit_commandlines ps c)).
Proof.
  induction n as [|n IH]; intros ps c Hs Hc; [lia|]. rewrite visit_eq. cbn [map fst snd].
  inversion Hc as [c' _ _ _ Hnd Hsub E]; subst c'.
  assert (Hsz : forall y, In y (subs c) -> size y < n) by (intros y Hy; pose proof (size_sub _ _ Hy); lia).
  constructor.
  - intros H. apply in_map_iff in H as [[qs x] [E H]]. cbn [fst snd] in E.
    apply in_flat_map in H as [y [Hy H]]. apply (visit_prefix n) in H; [|apply Hsz, Hy]. destruct H as [r Hr].
    rewrite E in Hr. unfold path_of in Hr. cbn [rev] in Hr. rewrite !map_app in Hr.
    apply (f_equal (@length _)) in Hr. rewrite !app_length in Hr. cbn in Hr. lia.
  - revert Hnd Hsub Hsz. generalize (subs c) as l. intros l. induction l as [|y l IHl]; intros Hnd Hsub Hsz; [constructor|].
    cbn [flat_map]. rewrite map_app. inversion Hnd as [|? ? Hni Hnd']; subst. apply NoDup_app_intro.
    + apply IH; [apply Hsz; left; reflexivity|apply Hsub; left; reflexivity].
    + apply IHl; [exact Hnd'|intros x Hx; apply Hsub; right; exact Hx|intros x Hx; apply Hsz; right; exact Hx].
    + intros p Hp1 Hp2. apply in_map_iff in Hp1 as [[q1 x1] [E1 H1]]. apply in_map_iff in Hp2 as [[q2 x2] [E2 H2]].
      cbn [fst snd] in *. apply in_flat_map in H2 as [z [Hz H2]].
      apply (visit_prefix n) in H1; [|apply Hsz; left; reflexivity].
      apply (visit_prefix n) in H2; [|apply Hsz; right; exact Hz].
      destruct H1 as [r1 H1]. destruct H2 as [r2 H2]. rewrite E1 in H1. rewrite E2, H1 in H2.
      unfold path_of in H2. cbn [rev] in H2. rewrite !map_app, <- !app_assoc in H2. cbn [map app] in H2.
      apply app_inv_head in H2. injection H2 as H2 _. apply Hni. rewrite H2. apply in_map, Hz.
Qed.

Lemma visit_order n : forall ps c, size c < n -> forall a b p qs x,
  visit_commandlines ps c = a ++ (p :: qs, x) :: b -> (ps = p :: qs /\ x = c) \/ In (qs, p) a.
Proof.
  induction n as [|n IH]; intros ps c Hs a b p qs x H; [lia|]. rewrite visit_eq in H.
  destruct a as [|e a]; cbn [app] in H; [injection H as -> -> _; left; auto|]. injection H as <- H. right.
  assert (HH : forall l a b, (forall y, In y l -> size y < n) ->
    flat_map (visit_commandlines (c :: ps)) l = a ++ (p :: qs, x) :: b -> (ps, c) = (qs, p) \/ In (qs, p) a).
  { clear a b H. induction l as [|y l IHl]; intros a b Hl H; [destruct a; discriminate|]. cbn [flat_map] in H.
    assert (HS : (exists b', visit_commandlines (c :: ps) y = a ++ (p :: qs, x) :: b') \/
            (exists a', a = visit_commandlines (c :: ps) y ++ a' /\ flat_map (visit_commandlines (c :: ps)) l = a' ++ (p :: qs, x) :: b)).
    { revert H. generalize (visit_commandlines (c :: ps) y) as u. intros u.
      revert a. induction u as [|e u IHu]; intros a H.
      - right. exists a. split; [reflexivity|exact H].
      - destruct a as [|e' a]; cbn [app] in H.
        + injection H as -> _. left. exists u. reflexivity.
        + injection H as -> H. destruct (IHu a H) as [[b' E]|[a' [E1 E2]]].
          * left. exists b'. cbn. rewrite E. reflexivity.
          * right. exists a'. split; [cbn; rewrite E1; reflexivity|exact E2]. }
    destruct HS as [[b' E]|[a' [E1 E2]]].
    - apply IH in E; [|apply Hl; left; reflexivity]. destruct E as [[E _]|E]; [left; congruence|right; exact E].
    - destruct (IHl a' b (fun z Hz => Hl z (or_intror Hz)) E2) as [E|E]; [left; exact E|].
      right. rewrite E1. apply in_or_app. right. exact E. }
  destruct (HH (subs c) a b) as [E|E].
  - intros y Hy. pose proof (size_sub _ _ Hy). lia.
  - exact H.
  - left. exact E.
  - right. exact E.
Qed.
