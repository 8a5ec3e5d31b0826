(** * Proofs about the configuration and validation of command trees. *)
From Verif Require Import Base Dict Value StrUtils Cli DictSource When SchemeValidator SpecCli
  CliProofs CliMore SpecScheme SchemeNested SchemeProofs Generation SpecGeneration.
Open Scope list_scope.

(** ** Applying a configuration *)

Lemma apply_eq cf c : apply_config cf c =
  Cmd (c_prog c) (c_help c) (c_aliases c) (c_wraps c)
    (inherit_bool (c_abbrev_cmds c) (cf_abbreviate_commands cf))
    (inherit_bool (c_abbrev_opts c) (cf_abbreviate_options cf))
    (inherit_bool (c_inherit c) (cf_inherit_options cf))
    (map (apply_option cf) (c_options c))
    (map (apply_positional cf) (c_positionals c))
    (match c_subcommands c with None => None | Some l => Some (map (apply_config cf) l) end).
Proof. destruct c; reflexivity. Qed.

Lemma apply_subs cf c : subs (apply_config cf c) = map (apply_config cf) (subs c).
Proof. rewrite apply_eq. unfold subs. cbn. destruct (c_subcommands c); reflexivity. Qed.

Lemma inherit_decided b x : decided b x (inherit_bool x b).
Proof. unfold decided, inherit_bool, xb. destruct x; auto; right; split; auto; discriminate. Qed.

Lemma Forall2_map_r {A B} (R : A -> B -> Prop) (f : A -> B) l : (forall x, In x l -> R x (f x)) ->
  Forall2 R l (map f l).
Proof. induction l; cbn; intros H; constructor; auto. Qed.

Lemma apply_option_configured cf o : configured_option cf o (apply_option cf o).
Proof.
  constructor; try reflexivity; cbn.
  - unfold decided_sep. destruct (o_sep o); auto; right; split; auto; discriminate.
  - destruct (cf_disabled_repeatable cf); [reflexivity|apply inherit_decided].
Qed.

Lemma apply_positional_configured cf p : configured_positional cf p (apply_positional cf p).
Proof. constructor; reflexivity. Qed.

Lemma apply_configured cf c : configured cf c (apply_config cf c).
Proof.
  induction c as [c IH] using cmd_subs_ind. constructor.
  all: rewrite ?apply_subs; rewrite ?apply_eq; cbn; auto using inherit_decided.
  - apply Forall2_map_r. intros; apply apply_option_configured.
  - apply Forall2_map_r. intros; apply apply_positional_configured.
  - destruct (c_subcommands c); split; intros; congruence.
  - apply Forall2_map_r; auto.
Qed.

Lemma apply_option_again cf cf' o : (cf' = cf \/ nothing_disabled cf') ->
  apply_option cf' (apply_option cf o) = apply_option cf o.
Proof.
  intros H. unfold apply_option; cbn. f_equal.
  - destruct H as [-> | (H1 & H2 & H3 & H4 & H5)]; [destruct (cf_disabled_groups cf); auto|].
    rewrite H3; auto.
  - destruct H as [-> | (H1 & H2 & H3 & H4 & H5)].
    + destruct (cf_disabled_repeatable cf), (o_repeatable o), (cf_repeatable_options cf); auto.
    + rewrite H4. destruct (cf_disabled_repeatable cf), (o_repeatable o), (cf_repeatable_options cf); auto.
  - destruct H as [-> | (H1 & H2 & H3 & H4 & H5)]; [destruct (cf_disabled_final cf); auto|].
    rewrite H2; auto.
  - destruct H as [-> | (H1 & H2 & H3 & H4 & H5)]; [destruct (cf_disabled_hidden cf); auto|].
    rewrite H1; auto.
  - destruct H as [-> | (H1 & H2 & H3 & H4 & H5)]; [destruct (cf_disabled_when cf); auto|].
    rewrite H5; auto.
  - destruct (o_sep o), (cf_long_opt_arg_sep cf); auto.
Qed.

Lemma apply_again cf cf' c : (cf' = cf \/ nothing_disabled cf') ->
  apply_config cf' (apply_config cf c) = apply_config cf c.
Proof.
  intros H. induction c as [c IH] using cmd_subs_ind.
  rewrite (apply_eq cf'), (apply_eq cf). cbn.
  f_equal; try (unfold inherit_bool; destruct (c_abbrev_cmds c), (c_abbrev_opts c), (c_inherit c),
    (cf_abbreviate_commands cf), (cf_abbreviate_options cf), (cf_inherit_options cf); reflexivity).
  - rewrite map_map. apply map_ext. intros; apply apply_option_again; auto.
  - rewrite map_map. apply map_ext. intros p. unfold apply_positional; cbn. f_equal.
    destruct H as [-> | (_ & _ & _ & _ & ->)]; auto. destruct (cf_disabled_when cf); auto.
  - unfold subs in IH. destruct (c_subcommands c); auto. f_equal. rewrite map_map.
    apply map_ext_in. auto.
Qed.

(** ** The commands of a configured tree *)

Definition image cf (x : list cmd * cmd) : list cmd * cmd :=
  (map (apply_config cf) (fst x), apply_config cf (snd x)).

Lemma visit_apply cf c : forall ps,
  visit_commandlines (map (apply_config cf) ps) (apply_config cf c) =
  map (image cf) (visit_commandlines ps c).
Proof.
  induction c as [c IH] using cmd_subs_ind. intros ps.
  rewrite (visit_eq _ (apply_config cf c)), (visit_eq ps c). cbn [map]. f_equal.
  rewrite apply_subs. rewrite !flat_map_concat_map, concat_map, !map_map. f_equal.
  apply map_ext_in. intros x Hx. rewrite <- IH by auto. reflexivity.
Qed.

Lemma path_apply cf ps c :
  get_command_path (map (apply_config cf) ps) (apply_config cf c) = get_command_path ps c.
Proof.
  unfold get_command_path. f_equal. unfold get_parents.
  assert (E : forall l, map c_prog (map (apply_config cf) l) = map c_prog l).
  { intros l. rewrite map_map. apply map_ext. intros x. rewrite apply_eq. reflexivity. }
  assert (P : forall l acc, parents_loop l acc = rev l ++ acc).
  { induction l as [|x l IH]; intros acc; cbn; [reflexivity|]. rewrite IH, <- app_assoc. reflexivity. }
  rewrite !P, !app_nil_r, !map_app, !map_rev, E. cbn. rewrite apply_eq. reflexivity.
Qed.

(** ** The check of completers depends on the context only through [command_arg] *)

Section Context.
Variables (e : env) (c1 c2 : ctx).
Hypothesis same : forall tr args, check_command_arg c1 tr args = check_command_arg c2 tr args.

Lemma simple_same tr k args : check_simple e c1 tr k args = check_simple e c2 tr k args.
Proof. destruct k; cbn; auto. Qed.

Definition agrees v := forall tr, check_complete e c1 tr v = check_complete e c2 tr v.

Lemma completers_same l : (forall x, In x l -> agrees x) -> forall tr,
  completers (check_complete e c1) tr l = completers (check_complete e c2) tr l.
Proof.
  induction l as [|x l IH]; intros H tr; cbn; [reflexivity|].
  rewrite (H x (or_introl eq_refl)). destruct (check_complete e c2 tr x); cbn; [reflexivity|].
  apply IH. intros; apply H; right; auto.
Qed.

Lemma optional_same v : (v <> VNone -> agrees v) -> forall tr,
  optional_completer (check_complete e c1) tr v = optional_completer (check_complete e c2) tr v.
Proof. intros H tr. destruct v; try reflexivity; apply H; discriminate. Qed.

Lemma kvl_same l : (forall x, In x (flat_map entry_completer l) -> agrees x) -> forall tr keys,
  kvl_entries (check_complete e c1) tr keys l = kvl_entries (check_complete e c2) tr keys l.
Proof.
  induction l as [|x l IH]; intros H tr keys; [reflexivity|].
  assert (Hl : forall x, In x (flat_map entry_completer l) -> agrees x).
  { intros; apply H. cbn. apply in_or_app; auto. }
  specialize (IH Hl).
  destruct x as [|b|z|f|t|[|key [|desc [|co rest]]]|d]; try reflexivity.
  assert (O : forall tr, optional_completer (check_complete e c1) tr co =
                         optional_completer (check_complete e c2) tr co).
  { apply optional_same. intros N. apply H. cbn.
    apply in_or_app. left. destruct co; try (left; reflexivity). contradiction. }
  cbn [kvl_entries]. destruct rest as [|r [|r' rest]]; try reflexivity.
  - destruct (check_type co [TList; TNone]); cbn; [reflexivity|].
    destruct (check_key key desc); cbn; [reflexivity|].
    destruct (mems _ keys); [reflexivity|]. rewrite O.
    destruct (optional_completer (check_complete e c2) tr co); cbn; [reflexivity|]. apply IH.
  - destruct (check_type co [TList; TNone]); cbn; [reflexivity|].
    destruct (check_key key desc); cbn; [reflexivity|].
    destruct (mems _ keys); [reflexivity|]. rewrite O.
    destruct (optional_completer (check_complete e c2) tr co); cbn; [reflexivity|].
    destruct (check_excludes r); cbn; [reflexivity|]. apply IH.
Qed.

Lemma kvp_same l : (forall x, In x (flat_map entry_completer l) -> agrees x) -> forall tr,
  kvp_entries (check_complete e c1) tr l = kvp_entries (check_complete e c2) tr l.
Proof.
  induction l as [|x l IH]; intros H tr; [reflexivity|].
  assert (Hl : forall x, In x (flat_map entry_completer l) -> agrees x).
  { intros; apply H. cbn. apply in_or_app; auto. }
  specialize (IH Hl).
  destruct x as [|b|z|f|t|[|key [|desc [|co [|r rest]]]]|d]; try reflexivity.
  assert (O : forall tr, optional_completer (check_complete e c1) tr co =
                         optional_completer (check_complete e c2) tr co).
  { apply optional_same. intros N. apply H. cbn.
    apply in_or_app. left. destruct co; try (left; reflexivity). contradiction. }
  cbn [kvp_entries].
  destruct (check_type co [TList; TNone]); cbn; [reflexivity|].
  destruct (check_key key desc); cbn; [reflexivity|]. rewrite O.
  destruct (optional_completer (check_complete e c2) tr co); cbn; [reflexivity|]. apply IH.
Qed.

Lemma complete_same v : agrees v.
Proof.
  induction v as [v IH] using (Wf_nat.induction_ltof1 _ vsize). unfold Wf_nat.ltof in IH.
  assert (IHc : forall x, In x (children v) -> agrees x).
  { intros x Hx. apply IH. apply children_size; auto. }
  intros tr.
  destruct v as [| | | | |[|x args]|]; try reflexivity.
  destruct x as [| | | |cmd| |]; try reflexivity.
  cbn [check_complete]. destruct (dget str_eqb cmd commands) as [k|] eqn:G; [|reflexivity].
  destruct k; cbn [check_level]; try (rewrite simple_same; reflexivity).
  - assert (E : cmd = s "combine") by (apply (kind_name_ok _ _ _ G); reflexivity). subst cmd.
    unfold check_combine. destruct args as [|[| | | | |l|] [|]]; try reflexivity.
    rewrite children_combine in IHc. destruct l as [|? [|? ?]]; try reflexivity.
    apply completers_same; auto.
  - assert (E : cmd = s "key_value_list") by (apply (kind_name_ok _ _ _ G); reflexivity). subst cmd.
    unfold check_key_value_list.
    destruct args as [|[| | | |ps| |] args]; try reflexivity.
    destruct args as [|[| | | |vs| |] args]; try reflexivity.
    destruct args as [|[| | | | |l|] rest]; try reflexivity.
    rewrite children_kvl in IHc. rewrite kvl_same by auto. reflexivity.
  - assert (E : cmd = s "key_value_pair") by (apply (kind_name_ok _ _ _ G); reflexivity). subst cmd.
    unfold check_key_value_pair.
    destruct args as [|[| | | |vs| |] args]; try reflexivity.
    destruct args as [|[| | | | |l|] rest]; try reflexivity.
    rewrite children_kvp in IHc. rewrite kvp_same by auto. reflexivity.
  - assert (E : cmd = s "list") by (apply (kind_name_ok _ _ _ G); reflexivity). subst cmd.
    unfold check_list. destruct args as [|x rest]; try reflexivity.
    rewrite children_list in IHc.
    destruct (check_list_options rest); cbn; [reflexivity|]. apply IHc. left; reflexivity.
  - assert (E : cmd = s "prefix") by (apply (kind_name_ok _ _ _ G); reflexivity). subst cmd.
    unfold check_prefix. destruct args as [|[| | | |t| |] [|x [|]]]; try reflexivity.
    rewrite children_prefix in IHc. apply IHc. left; reflexivity.
Qed.
End Context.

(** ** The definitions of options and positionals *)

Lemma items_cons rules k v d r : find_rule rules k = Some r -> check_type v (r_types r) = Ok tt ->
  r_check r v = Ok tt -> check_items rules d = Ok tt -> check_items rules ((k, v) :: d) = Ok tt.
Proof. intros H1 H2 H3 H4. cbn [check_items]. rewrite H1, H2. cbn. rewrite H3. cbn. exact H4. Qed.

Lemma text_type o : check_type (text_or_none o) opt_str = Ok tt.
Proof. destruct o; reflexivity. Qed.
Lemma texts_type o : check_type (texts_or_none o) opt_list = Ok tt.
Proof. destruct o; reflexivity. Qed.
Lemma list_type o : check_type (list_or_none o) opt_list = Ok tt.
Proof. destruct o; reflexivity. Qed.
Lemma xbool_type x : check_type (xbool_value x) xbool_ty = Ok tt.
Proof. destruct x; reflexivity. Qed.
Lemma xbool_check x : check_extended_bool (xbool_value x) = Ok tt.
Proof. destruct x; reflexivity. Qed.

Ltac item := eapply items_cons;
  [reflexivity
  |first [apply text_type|apply texts_type|apply list_type|apply xbool_type|reflexivity]
  |first [apply xbool_check|reflexivity]|].

Lemma option_dictionary o : check_dictionary (option_to_definition o) option_rules = Ok tt.
Proof.
  unfold check_dictionary.
  assert (H : check_items option_rules (option_to_definition o) = Ok tt).
  { unfold option_to_definition, key. do 12 item. reflexivity. }
  rewrite H. reflexivity.
Qed.

Lemma positional_dictionary p : check_dictionary (positional_to_definition p) positional_rules = Ok tt.
Proof.
  unfold check_dictionary.
  assert (H : check_items positional_rules (positional_to_definition p) = Ok tt).
  { unfold positional_to_definition, key. do 8 item. reflexivity. }
  rewrite H. reflexivity.
Qed.

Lemma command_dictionary ps c : check_dictionary (commandline_to_definition ps c) definition_rules = Ok tt.
Proof.
  unfold check_dictionary.
  assert (H : check_items definition_rules (commandline_to_definition ps c) = Ok tt).
  { unfold commandline_to_definition, key. do 9 item. reflexivity. }
  rewrite H. reflexivity.
Qed.

Definition when_fine (e : env) (w : option str) : Prop :=
  forall x, w = Some x -> check_when e (VStr x) = Ok tt.
Definition completer_fine (e : env) (c : ctx) (o : option (list value)) : Prop :=
  forall l, o = Some l -> exists t, check_complete e c [] (VList l) = Ok t.
Definition capture_fine (o : option str) : Prop :=
  forall x, o = Some x -> is_valid_variable_name x = true.

(** What is checked about an option, apart from [when] and the combination of [hidden] and
    [repeatable] *)
Definition option_fine (e : env) (o : opt) : Prop :=
  o_strings o <> [] /\ (forall x, In x (o_strings o) -> is_valid_option_string x = true) /\
  (o_metavar o <> None -> o_complete o <> None) /\
  (o_optional_arg o = true -> o_complete o <> None) /\
  completer_fine e (MkCtx None VNone) (o_complete o) /\
  capture_fine (o_capture o).

Lemma option_ctx_same P : forall tr args,
  check_command_arg (MkCtx None P) tr args = check_command_arg (MkCtx None VNone) tr args.
Proof. reflexivity. Qed.

Lemma if_ok (b : bool) (x : exn) (r : res unit) :
  (if b then Err x else r) = Ok tt <-> b = false /\ r = Ok tt.
Proof. destruct b; split; [discriminate|intros [? _]; discriminate|auto|tauto]. Qed.

Lemma option_strings_fine o :
  (do _ <- check_if true check_non_empty_list (vget (s "option_strings") (option_to_definition o));
   on_list check_option_string (vget (s "option_strings") (option_to_definition o))) = Ok tt <->
  o_strings o <> [] /\ (forall x, In x (o_strings o) -> is_valid_option_string x = true).
Proof.
  change (vget (s "option_strings") (option_to_definition o))
    with (Some (VList (map VStr (o_strings o)))).
  cbn [check_if on_list]. destruct (o_strings o) as [|a l]; cbn [map].
  - cbn. split; [discriminate|intros [H _]; contradiction].
  - change (check_non_empty_list (VList (VStr a :: map VStr l))) with (Ok tt : res unit).
    cbn [bind]. change (VStr a :: map VStr l) with (map VStr (a :: l)).
    rewrite each_iff. split.
    + intros H. split; [discriminate|]. intros x Hx. specialize (H (VStr x) (in_map VStr _ _ Hx)).
      cbn in H. destruct (is_valid_option_string x); [reflexivity|discriminate].
    + intros [_ H] v Hv. apply in_map_iff in Hv as (x & <- & Hx). cbn. rewrite H; auto.
Qed.

Lemma bind_tt (r k : res unit) : (do _ <- r; k) = Ok tt <-> r = Ok tt /\ k = Ok tt.
Proof. destruct r as [x|[]]; cbn; split; [discriminate|intros [? _]; discriminate|auto|tauto]. Qed.

Lemma complete_fine e c o :
  check_if (match o with Some _ => true | None => false end)
    (fun x => do _ <- check_complete e c [] x; Ok tt) (Some (list_or_none o)) = Ok tt <->
  completer_fine e c o.
Proof.
  unfold completer_fine. destruct o as [l|]; cbn [check_if list_or_none].
  - split.
    + intros H l' E. injection E as <-. destruct (check_complete e c [] (VList l)); [discriminate|eauto].
    + intros H. destruct (H l eq_refl) as [t ->]. reflexivity.
  - split; [intros _ l E; discriminate|reflexivity].
Qed.

Lemma when_check_fine e w :
  check_if (match w with Some _ => true | None => false end) (check_when e) (Some (text_or_none w)) = Ok tt
  <-> when_fine e w.
Proof.
  unfold when_fine. destruct w as [x|]; cbn [check_if text_or_none].
  - split; [intros H y E; injection E as <-; exact H|intros H; apply H; reflexivity].
  - split; [intros _ y E; discriminate|reflexivity].
Qed.

Lemma capture_check_fine w :
  check_if (match w with Some _ => true | None => false end) check_variable_name (Some (text_or_none w)) = Ok tt
  <-> capture_fine w.
Proof.
  unfold capture_fine. destruct w as [x|]; cbn [check_if text_or_none].
  - unfold check_variable_name, on_str. destruct (is_valid_variable_name x) eqn:E.
    + split; [intros _ y Ey; injection Ey as <-; exact E|reflexivity].
    + split; [discriminate|intros H; specialize (H x eq_refl); congruence].
  - split; [intros _ y E; discriminate|reflexivity].
Qed.

Definition given {A} (o : option A) : bool := match o with Some _ => true | None => false end.

Lemma o_has_metavar o : has_set (option_to_definition o) "metavar" = given (o_metavar o).
Proof. change (match text_or_none (o_metavar o) with VNone => false | _ => true end = given (o_metavar o)).
  destruct (o_metavar o); reflexivity. Qed.
Lemma o_has_complete o : has_set (option_to_definition o) "complete" = given (o_complete o).
Proof. change (match list_or_none (o_complete o) with VNone => false | _ => true end = given (o_complete o)).
  destruct (o_complete o); reflexivity. Qed.
Lemma o_has_when o : has_set (option_to_definition o) "when" = given (o_when o).
Proof. change (match text_or_none (o_when o) with VNone => false | _ => true end = given (o_when o)).
  destruct (o_when o); reflexivity. Qed.
Lemma o_has_capture o : has_set (option_to_definition o) "capture" = given (o_capture o).
Proof. change (match text_or_none (o_capture o) with VNone => false | _ => true end = given (o_capture o)).
  destruct (o_capture o); reflexivity. Qed.
Lemma p_has_when o : has_set (positional_to_definition o) "when" = given (p_when o).
Proof. change (match text_or_none (p_when o) with VNone => false | _ => true end = given (p_when o)).
  destruct (p_when o); reflexivity. Qed.
Lemma p_has_capture o : has_set (positional_to_definition o) "capture" = given (p_capture o).
Proof. change (match text_or_none (p_capture o) with VNone => false | _ => true end = given (p_capture o)).
  destruct (p_capture o); reflexivity. Qed.

Lemma o_groups_fine o : (if has_set (option_to_definition o) "groups"
  then on_list (fun g => check_type g [TStr]) (vget (s "groups") (option_to_definition o))
  else Ok tt) = (Ok tt : res unit).
Proof.
  change (vget (s "groups") (option_to_definition o)) with (Some (texts_or_none (o_groups o))).
  change (has_set (option_to_definition o) "groups")
    with (match texts_or_none (o_groups o) with VNone => false | _ => true end).
  destruct (o_groups o) as [l|]; [|reflexivity]. cbn [texts_or_none on_list].
  apply each_iff. intros v Hv. apply in_map_iff in Hv as (x & <- & _). reflexivity.
Qed.

Lemma given_false {A} (o : option A) : given o = false <-> o = None.
Proof. destruct o; cbn; split; congruence. Qed.
Lemma given_true {A} (o : option A) : given o = true <-> o <> None.
Proof. destruct o; cbn; split; congruence. Qed.

Lemma and_not_false (a b : bool) : a && negb b = false <-> (a = true -> b = true).
Proof. destruct a, b; cbn; intuition congruence. Qed.

Lemma check_option_iff e P o :
  check_option e P (VDict (option_to_definition o)) = Ok tt <->
  option_fine e o /\ when_fine e (o_when o) /\ ~ (o_repeatable o = XTrue /\ o_hidden o = true).
Proof.
  rewrite check_option_ok. unfold check_option0. rewrite option_dictionary. cbn [bind].
  rewrite !bind_tt.
  rewrite o_has_metavar, o_has_complete, o_has_when, o_has_capture, o_groups_fine.
  change (vget (s "complete") (option_to_definition o)) with (Some (list_or_none (o_complete o))).
  change (vget (s "when") (option_to_definition o)) with (Some (text_or_none (o_when o))).
  change (vget (s "capture") (option_to_definition o)) with (Some (text_or_none (o_capture o))).
  change (is_true (option_to_definition o) "optional_arg") with (if o_optional_arg o then true else false).
  change (is_true (option_to_definition o) "hidden") with (if o_hidden o then true else false).
  change (is_true (option_to_definition o) "repeatable")
    with (match xbool_value (o_repeatable o) with VBool true => true | _ => false end).
  change (has_set (option_to_definition o) "group") with false.
  change (has_set (option_to_definition o) "long_opt_arg_sep") with false.
  cbn [bind andb check_if].
  rewrite !if_ok, !bind_tt.
  pose proof (option_strings_fine o) as S. rewrite bind_tt in S.
  unfold given.
  rewrite complete_fine, when_check_fine, capture_check_fine.
  fold (given (o_complete o)). fold (given (o_metavar o)).
  rewrite !and_not_false.
  assert (C : completer_fine e (MkCtx None P) (o_complete o) <->
              completer_fine e (MkCtx None VNone) (o_complete o)).
  { unfold completer_fine. split; intros H l E; destruct (H l E) as [t Ht]; exists t; rewrite <- Ht;
      [symmetry|]; apply complete_same; apply option_ctx_same. }
  rewrite C. rewrite !given_true.
  assert (B : (if o_optional_arg o then true else false) = o_optional_arg o) by (destruct (o_optional_arg o); auto).
  rewrite B.
  assert (R : match xbool_value (o_repeatable o) with VBool true => true | _ => false end &&
              (if o_hidden o then true else false) = false <->
              ~ (o_repeatable o = XTrue /\ o_hidden o = true)).
  { destruct (o_repeatable o), (o_hidden o); cbn; split; auto; intros H; try discriminate H;
      try (exfalso; apply H; auto); intros [? ?]; congruence. }
  rewrite R. unfold option_fine. tauto.
Qed.

Definition pos_defs (l : list pos) : list value := map (fun p => VDict (positional_to_definition p)) l.

Definition positional_fine (e : env) (l : list pos) (p : pos) : Prop :=
  (1 <= p_number p)%Z /\
  completer_fine e (MkCtx (Some (positional_to_definition p)) (VList (pos_defs l)))
    (Some (p_complete p)) /\
  capture_fine (p_capture p).

Lemma check_positional_iff e l p :
  check_positional e (VList (pos_defs l)) (VDict (positional_to_definition p)) = Ok tt <->
  positional_fine e l p /\ when_fine e (p_when p).
Proof.
  unfold check_positional. rewrite positional_dictionary. cbn [bind].
  change (get_number (positional_to_definition p)) with (Ok (p_number p) : res Z). cbn [bind].
  rewrite if_ok, !bind_tt.
  change (has_set (positional_to_definition p) "complete") with true.
  rewrite p_has_when, p_has_capture.
  change (vget (s "complete") (positional_to_definition p)) with (Some (list_or_none (Some (p_complete p)))).
  change (vget (s "when") (positional_to_definition p)) with (Some (text_or_none (p_when p))).
  change (vget (s "capture") (positional_to_definition p)) with (Some (text_or_none (p_capture p))).
  unfold given.
  rewrite (complete_fine e _ (Some (p_complete p))), when_check_fine, capture_check_fine.
  unfold positional_fine. rewrite Z.ltb_ge. tauto.
Qed.

Lemma positional_ctx_same cf l p : forall tr args,
  check_command_arg (MkCtx (Some (positional_to_definition (apply_positional cf p)))
                           (VList (pos_defs (map (apply_positional cf) l)))) tr args =
  check_command_arg (MkCtx (Some (positional_to_definition p)) (VList (pos_defs l))) tr args.
Proof.
  intros tr args. unfold check_command_arg. destruct (check_void args); cbn [bind]; [reflexivity|].
  destruct (last_in tr _); [reflexivity|]. cbn [cx_positional cx_positionals].
  change (has_set (positional_to_definition (apply_positional cf p)) "repeatable")
    with (has_set (positional_to_definition p) "repeatable").
  change (vget (s "repeatable") (positional_to_definition (apply_positional cf p)))
    with (vget (s "repeatable") (positional_to_definition p)).
  destruct (negb _ || negb _); [reflexivity|].
  assert (E : any_res (command_is_previous (positional_to_definition (apply_positional cf p)))
                (pos_defs (map (apply_positional cf) l)) =
              any_res (command_is_previous (positional_to_definition p)) (pos_defs l)).
  { unfold pos_defs. rewrite map_map. induction l as [|q l IH]; [reflexivity|].
    cbn [map any_res].
    change (command_is_previous (positional_to_definition (apply_positional cf p))
              (VDict (positional_to_definition (apply_positional cf q))))
      with (command_is_previous (positional_to_definition p) (VDict (positional_to_definition q))).
    rewrite IH. reflexivity. }
  rewrite E. reflexivity.
Qed.

Lemma positional_fine_apply e cf l p :
  positional_fine e (map (apply_positional cf) l) (apply_positional cf p) <-> positional_fine e l p.
Proof.
  unfold positional_fine, completer_fine. cbn [apply_positional p_number p_complete p_capture].
  setoid_rewrite (complete_same e _ _ (positional_ctx_same cf l p)). tauto.
Qed.

Definition head_fine (path : str) (aliases : list str) (wraps : option str) : Prop :=
  validate_prog path = Ok tt /\ each check_extension (map VStr aliases) = Ok tt /\
  forall w, wraps = Some w -> check_wraps [key "prog" (VStr path)] (VStr w) = Ok tt.

Lemma check_definition_iff e ps c :
  check_definition e (commandline_to_definition ps c) = Ok tt <->
  head_fine (get_command_path ps c) (c_aliases c) (c_wraps c) /\
  (forall o, In o (c_options c) ->
     check_option e (VList (pos_defs (c_positionals c))) (VDict (option_to_definition o)) = Ok tt) /\
  (forall p, In p (c_positionals c) ->
     check_positional e (VList (pos_defs (c_positionals c))) (VDict (positional_to_definition p)) = Ok tt).
Proof.
  unfold check_definition. rewrite command_dictionary. cbn [bind]. rewrite !bind_tt.
  change (has_set (commandline_to_definition ps c) "aliases") with true.
  change (has_set (commandline_to_definition ps c) "options") with true.
  change (has_set (commandline_to_definition ps c) "positionals") with true.
  change (has_set (commandline_to_definition ps c) "wraps")
    with (match text_or_none (c_wraps c) with VNone => false | _ => true end).
  change (vget (s "prog") (commandline_to_definition ps c)) with (Some (VStr (get_command_path ps c))).
  change (vget (s "aliases") (commandline_to_definition ps c)) with (Some (VList (map VStr (c_aliases c)))).
  change (vget (s "wraps") (commandline_to_definition ps c)) with (Some (text_or_none (c_wraps c))).
  change (vget (s "options") (commandline_to_definition ps c))
    with (Some (VList (map (fun o => VDict (option_to_definition o)) (c_options c)))).
  change (vget (s "positionals") (commandline_to_definition ps c))
    with (Some (VList (pos_defs (c_positionals c)))).
  change (getd (s "positionals") VNone (commandline_to_definition ps c))
    with (VList (pos_defs (c_positionals c))).
  cbn [on_list check_if].
  assert (W : (if match text_or_none (c_wraps c) with VNone => false | _ => true end
               then check_wraps (commandline_to_definition ps c) (text_or_none (c_wraps c))
               else Ok tt) = (Ok tt : res unit) <->
              forall w, c_wraps c = Some w ->
                check_wraps [key "prog" (VStr (get_command_path ps c))] (VStr w) = Ok tt).
  { destruct (c_wraps c) as [w|]; cbn [text_or_none].
    - split; [intros H w' E; injection E as <-; exact H|intros H; exact (H w eq_refl)].
    - split; [intros _ w' E; discriminate|reflexivity]. }
  unfold check_if. rewrite W.
  rewrite (each_iff (check_option _ _)), (each_iff (check_positional _ _)).
  unfold head_fine, pos_defs.
  assert (F : forall (A : Type) (f : A -> value) (l : list A) (Q : value -> Prop),
             (forall v, In v (map f l) -> Q v) <-> (forall x, In x l -> Q (f x))).
  { intros A f l Q. split; intros H x Hx; [apply H, in_map, Hx|].
    apply in_map_iff in Hx as (y & <- & Hy). auto. }
  rewrite (F _ (fun o => VDict (option_to_definition o))).
  rewrite (F _ (fun o => VDict (positional_to_definition o))). tauto.
Qed.

(** ** The list of definitions of a configured tree *)

Definition doc_of (x : list cmd * cmd) : value := VDict (commandline_to_definition (fst x) (snd x)).

Lemma definitions_apply cf root :
  definition_list (apply_config cf root) = map (fun x => doc_of (image cf x)) (visit_commandlines [] root).
Proof.
  unfold definition_list. change (@nil cmd) with (map (apply_config cf) []) at 1.
  rewrite visit_apply, map_map. reflexivity.
Qed.

Lemma words_doc x : words (doc_of x) = split_c SP (get_command_path (fst x) (snd x)).
Proof. reflexivity. Qed.

Lemma words_image cf x : words (doc_of (image cf x)) = words (doc_of x).
Proof. rewrite !words_doc. unfold image; cbn [fst snd]. rewrite path_apply. reflexivity. Qed.

Lemma words_list cf root : map words (definition_list (apply_config cf root)) = map words (definition_list root).
Proof.
  rewrite definitions_apply. unfold definition_list. rewrite !map_map. apply map_ext.
  intros x. apply words_image.
Qed.

Lemma names_doc x : names_program (doc_of x) <-> validate_prog (get_command_path (fst x) (snd x)) = Ok tt.
Proof.
  unfold names_program, doc_of. split.
  - intros (d & p & E & G & V). injection E as <-.
    change (Some (VStr (get_command_path (fst x) (snd x))) = Some (VStr p)) in G.
    injection G as G. rewrite G. exact V.
  - intros V. exists (commandline_to_definition (fst x) (snd x)), (get_command_path (fst x) (snd x)).
    split; [reflexivity|]. split; [reflexivity|exact V].
Qed.

Lemma map_eq_mid {A B C} (f : A -> C) (g : B -> C) l : forall l' x r, map f (l ++ x :: r) = map g l' ->
  exists l2 y r2, l' = l2 ++ y :: r2 /\ map f l = map g l2 /\ f x = g y.
Proof.
  induction l as [|a l IH]; intros l' x r H; destruct l' as [|b l']; try discriminate H; cbn in H.
  - injection H as H1 H2. exists [], b, l'. auto.
  - injection H as H1 H2. destruct (IH _ _ _ H2) as (l2 & y & r2 & -> & E1 & E2).
    exists (b :: l2), y, r2. cbn. rewrite H1, E1. auto.
Qed.

Lemma parents_first_words d1 d2 : map words d1 = map words d2 -> parents_first d1 -> parents_first d2.
Proof.
  intros E H before v after ->. symmetry in E.
  destruct (map_eq_mid _ _ _ _ _ _ E) as (b1 & v1 & a1 & -> & E1 & E2).
  rewrite E1, E2. apply (H b1 v1 a1 eq_refl).
Qed.

Lemma In_words d1 d2 v : map words d1 = map words d2 -> In v d1 -> exists w, In w d2 /\ words w = words v.
Proof.
  intros E H. apply (in_map words) in H. rewrite E in H. apply in_map_iff in H as (w & ? & ?). eauto.
Qed.

Lemma NoDup_words_eq d v w : NoDup (map words d) -> In v d -> In w d -> words v = words w -> v = w.
Proof.
  induction d as [|x d IH]; intros N; [intros []|]. cbn in N. apply NoDup_cons_iff in N as [N1 N2].
  intros [->|Hv] [->|Hw] E; auto.
  - exfalso. apply N1. rewrite E. apply in_map; auto.
  - exfalso. apply N1. rewrite <- E. apply in_map; auto.
Qed.

Lemma one_program_words d1 d2 : map words d1 = map words d2 -> NoDup (map words d1) ->
  one_program d1 -> one_program d2.
Proof.
  intros E N (v & Hv & L & U).
  destruct (In_words _ _ _ E Hv) as (v2 & Hv2 & E2). exists v2. split; [auto|].
  split; [rewrite E2; exact L|]. intros v' Hv' L'.
  destruct (In_words _ _ _ (eq_sym E) Hv') as (w & Hw & Ew).
  assert (w = v) by (apply U; [auto|rewrite Ew; exact L']). subst w.
  apply (NoDup_words_eq d2); auto; [rewrite <- E; exact N|congruence].
Qed.

Lemma has_subcommand_words d1 d2 v w : map words d1 = map words d2 -> words v = words w ->
  has_subcommand d1 v -> has_subcommand d2 w.
Proof.
  intros E Ew (x & Hx & N & R). destruct (In_words _ _ _ E Hx) as (y & Hy & Ey).
  exists y. rewrite Ey, <- Ew. auto.
Qed.

Lemma positional_of_apply cf p n r :
  positional_of (VDict (positional_to_definition (apply_positional cf p))) n r <->
  positional_of (VDict (positional_to_definition p)) n r.
Proof.
  unfold positional_of.
  assert (X : forall d1 d2, vget (s "number") d1 = vget (s "number") d2 ->
     vget (s "repeatable") d1 = vget (s "repeatable") d2 ->
     (exists p0, VDict d1 = VDict p0 /\ (vget (s "number") p0 = Some (VInt n) \/
        (exists b : bool, vget (s "number") p0 = Some (VBool b) /\ n = (if b then 1 else 0)%Z)) /\
        r = match vget (s "repeatable") p0 with Some x => truthy x | None => false end) ->
     (exists p0, VDict d2 = VDict p0 /\ (vget (s "number") p0 = Some (VInt n) \/
        (exists b : bool, vget (s "number") p0 = Some (VBool b) /\ n = (if b then 1 else 0)%Z)) /\
        r = match vget (s "repeatable") p0 with Some x => truthy x | None => false end)).
  { intros d1 d2 E1 E2 (p0 & E & H1 & H2). assert (d1 = p0) by congruence. subst p0.
    exists d2. rewrite <- E1, <- E2. auto. }
  split; apply X; reflexivity.
Qed.

Lemma positionals_doc x : positionals_of (doc_of x) = pos_defs (c_positionals (snd x)).
Proof. reflexivity. Qed.

Lemma positionals_image cf x :
  positionals_of (doc_of (image cf x)) = pos_defs (map (apply_positional cf) (c_positionals (snd x))).
Proof. rewrite positionals_doc. unfold image; cbn [snd]. rewrite apply_eq. reflexivity. Qed.

Lemma last_repeatable_image cf x :
  last_repeatable (positionals_of (doc_of (image cf x))) <-> last_repeatable (positionals_of (doc_of x)).
Proof.
  rewrite positionals_image, positionals_doc. unfold last_repeatable, pos_defs. rewrite map_map.
  split; intros H v n w m r Hv Hw Pv Pw; apply in_map_iff in Hv as (p & <- & Hp);
    apply in_map_iff in Hw as (q & <- & Hq).
  - apply (H (VDict (positional_to_definition (apply_positional cf p))) n
             (VDict (positional_to_definition (apply_positional cf q))) m r).
    + apply in_map_iff; eauto.
    + apply in_map_iff; eauto.
    + apply positional_of_apply; exact Pv.
    + apply positional_of_apply; exact Pw.
  - apply (H (VDict (positional_to_definition p)) n (VDict (positional_to_definition q)) m r).
    + apply in_map_iff; eauto.
    + apply in_map_iff; eauto.
    + apply (positional_of_apply cf); exact Pv.
    + apply (positional_of_apply cf); exact Pw.
Qed.

Lemma some_repeatable_image cf x :
  some_repeatable (positionals_of (doc_of (image cf x))) <-> some_repeatable (positionals_of (doc_of x)).
Proof.
  rewrite positionals_image, positionals_doc. unfold some_repeatable, pos_defs. rewrite map_map.
  split; intros (v & n & Hv & P); apply in_map_iff in Hv as (p & <- & Hp).
  - exists (VDict (positional_to_definition p)), n. split; [apply in_map_iff; eauto|].
    apply (positional_of_apply cf); exact P.
  - exists (VDict (positional_to_definition (apply_positional cf p))), n.
    split; [apply in_map_iff; eauto|]. apply positional_of_apply; exact P.
Qed.

(** What is checked whatever the configuration is. *)
Definition command_fine (e : env) (docs : list value) (x : list cmd * cmd) : Prop :=
  head_fine (get_command_path (fst x) (snd x)) (c_aliases (snd x)) (c_wraps (snd x)) /\
  (forall o, In o (c_options (snd x)) -> option_fine e o) /\
  (forall p, In p (c_positionals (snd x)) -> positional_fine e (c_positionals (snd x)) p) /\
  last_repeatable (positionals_of (doc_of x)) /\
  (some_repeatable (positionals_of (doc_of x)) -> ~ has_subcommand docs (doc_of x)).

Definition tree_fine (e : env) (root : cmd) : Prop :=
  let docs := definition_list root in
  (forall x, In x (visit_commandlines [] root) -> names_program (doc_of x)) /\
  NoDup (map words docs) /\ parents_first docs /\ one_program docs /\
  forall x, In x (visit_commandlines [] root) -> short_path (fst x) (snd x) -> command_fine e docs x.

Definition whens_fine (e : env) (x : list cmd * cmd) : Prop :=
  (forall o, In o (c_options (snd x)) -> when_fine e (o_when o)) /\
  (forall p, In p (c_positionals (snd x)) -> when_fine e (p_when p)).

Lemma no_conflict_iff cf o : no_conflict cf o <->
  ~ (o_repeatable (apply_option cf o) = XTrue /\ o_hidden (apply_option cf o) = true).
Proof.
  unfold no_conflict, apply_option; cbn. unfold inherit_bool, xb.
  destruct (cf_disabled_hidden cf), (o_hidden o), (cf_disabled_repeatable cf), (o_repeatable o),
    (cf_repeatable_options cf); cbn; split; intros H; try tauto; try (intros [? ?]; congruence).
  all: try (destruct (H eq_refl eq_refl) as (? & ? & ?); intros [? ?]; try congruence; auto).
  all: try (exfalso; apply H; auto; fail).
  all: try (intros _ _; repeat split; congruence).
  all: intuition congruence.
Qed.

Lemma in_map_all {A B} (f : A -> B) l (Q : B -> Prop) :
  (forall y, In y (map f l) -> Q y) <-> (forall x, In x l -> Q (f x)).
Proof.
  split; intros H x Hx; [apply H, in_map, Hx|].
  apply in_map_iff in Hx as (y & <- & Hy). auto.
Qed.

Lemma option_fine_apply e cf o : option_fine e (apply_option cf o) <-> option_fine e o.
Proof. unfold option_fine, apply_option; cbn. tauto. Qed.

Lemma right_image e cf root x :
  right e (definition_list (apply_config cf root)) (doc_of (image cf x)) <->
  command_fine e (definition_list root) x /\
  (cf_disabled_when cf = false -> whens_fine e x) /\
  (forall o, In o (c_options (snd x)) -> no_conflict cf o).
Proof.
  unfold right. rewrite last_repeatable_image, some_repeatable_image.
  assert (S : has_subcommand (definition_list (apply_config cf root)) (doc_of (image cf x)) <->
              has_subcommand (definition_list root) (doc_of x)).
  { split; apply has_subcommand_words; rewrite ?words_list, ?words_image; reflexivity. }
  rewrite S.
  assert (D : (exists d, doc_of (image cf x) = VDict d /\ check_definition e d = Ok tt) <->
    check_definition e (commandline_to_definition (map (apply_config cf) (fst x)) (apply_config cf (snd x))) = Ok tt).
  { unfold doc_of, image; cbn [fst snd]. split.
    - intros (d & E & H). injection E as <-. exact H.
    - intros H. eexists. split; [reflexivity|exact H]. }
  rewrite D, check_definition_iff, path_apply. unfold command_fine.
  rewrite (apply_eq cf (snd x)). cbn [c_aliases c_wraps c_options c_positionals].
  rewrite !in_map_all.
  assert (O : (forall o, In o (c_options (snd x)) ->
      check_option e (VList (pos_defs (map (apply_positional cf) (c_positionals (snd x)))))
        (VDict (option_to_definition (apply_option cf o))) = Ok tt) <->
    (forall o, In o (c_options (snd x)) -> option_fine e o) /\
    (cf_disabled_when cf = false -> forall o, In o (c_options (snd x)) -> when_fine e (o_when o)) /\
    (forall o, In o (c_options (snd x)) -> no_conflict cf o)).
  { setoid_rewrite check_option_iff. setoid_rewrite option_fine_apply.
    setoid_rewrite <- no_conflict_iff. cbn [apply_option o_when].
    destruct (cf_disabled_when cf).
    - assert (W : when_fine e None) by (intros y Ey; discriminate). split.
      + intros H. split; [intros o Ho; apply (H o Ho)|]. split; [discriminate|intros o Ho; apply (H o Ho)].
      + intros (H1 & _ & H3) o Ho. split; [auto|split; auto].
    - split.
      + intros H. split; [intros o Ho; apply (H o Ho)|]. split; [intros _|]; intros o Ho; apply (H o Ho).
      + intros (H1 & H2 & H3) o Ho. split; [auto|split; auto]. }
  assert (P : (forall p, In p (c_positionals (snd x)) ->
      check_positional e (VList (pos_defs (map (apply_positional cf) (c_positionals (snd x)))))
        (VDict (positional_to_definition (apply_positional cf p))) = Ok tt) <->
    (forall p, In p (c_positionals (snd x)) -> positional_fine e (c_positionals (snd x)) p) /\
    (cf_disabled_when cf = false -> forall p, In p (c_positionals (snd x)) -> when_fine e (p_when p))).
  { setoid_rewrite check_positional_iff. setoid_rewrite positional_fine_apply.
    cbn [apply_positional p_when].
    destruct (cf_disabled_when cf).
    - assert (W : when_fine e None) by (intros y Ey; discriminate). split.
      + intros H. split; [intros o Ho; apply (H o Ho)|discriminate].
      + intros (H1 & _) o Ho. split; auto.
    - split.
      + intros H. split; [|intros _]; intros o Ho; apply (H o Ho).
      + intros (H1 & H2) o Ho. split; auto. }
  rewrite O, P. unfold whens_fine. tauto.
Qed.

Lemma validate_apply e cf root : validate_commandlines e (apply_config cf root) = Ok tt <->
  tree_fine e root /\
  forall x, In x (visit_commandlines [] root) -> short_path (fst x) (snd x) ->
    (cf_disabled_when cf = false -> whens_fine e x) /\
    (forall o, In o (c_options (snd x)) -> no_conflict cf o).
Proof.
  unfold validate_commandlines. rewrite validate_iff.
  set (docs := definition_list (apply_config cf root)).
  assert (Wd : map words docs = map words (definition_list root)) by apply words_list.
  assert (N : Forall names_program docs <->
              forall x, In x (visit_commandlines [] root) -> names_program (doc_of x)).
  { rewrite Forall_forall. unfold docs. rewrite definitions_apply, in_map_all.
    setoid_rewrite names_doc. unfold image; cbn [fst snd]. setoid_rewrite path_apply. tauto. }
  assert (R : (forall v, In v docs -> length (words v) <= 2 -> right e docs v) <->
              (forall x, In x (visit_commandlines [] root) -> short_path (fst x) (snd x) ->
                 command_fine e (definition_list root) x /\
                 (cf_disabled_when cf = false -> whens_fine e x) /\
                 (forall o, In o (c_options (snd x)) -> no_conflict cf o))).
  { unfold docs at 1. rewrite definitions_apply, in_map_all.
    setoid_rewrite words_image. subst docs. setoid_rewrite right_image. unfold short_path. reflexivity. }
  rewrite N, R, Wd. unfold tree_fine. split.
  - intros (H1 & H2 & H3 & H4 & H5). split; [|intros x Hx Sx; destruct (H5 x Hx Sx) as (_ & ? & ?); auto].
    split; [exact H1|]. split; [exact H2|].
    split; [apply (parents_first_words docs); auto|].
    split; [apply (one_program_words docs); auto; rewrite Wd; auto|].
    intros x Hx Sx. apply (H5 x Hx Sx).
  - intros ((H1 & H2 & H3 & H4 & H5) & H6). split; [exact H1|]. split; [exact H2|].
    split; [apply (parents_first_words (definition_list root)); auto|].
    split; [apply (one_program_words (definition_list root)); auto|].
    intros x Hx Sx. split; [auto|]. apply (H6 x Hx Sx).
Qed.

(** ** The pass over the conditions *)

Lemma fold_unit_iff {B} (f : B -> res unit) l : fold_res (fun _ x => f x) l tt = Ok tt <->
  forall x, In x l -> f x = Ok tt.
Proof.
  induction l as [|x l IH]; cbn [fold_res].
  - split; [intros _ x []|reflexivity].
  - destruct (f x) as [er|[]] eqn:E; cbn [bind]; [split; [discriminate|intros H; rewrite H in E by (left; auto); discriminate]|].
    rewrite IH. split.
    + intros H2 y [<-|Hy]; auto.
    + intros H y Hy; apply H; right; auto.
Qed.

Definition parses (e : env) (w : option str) : Prop := parse_when_of e w = Ok tt.
Definition whens_parse (e : env) (x : list cmd * cmd) : Prop :=
  (forall o, In o (c_options (snd x)) -> parses e (o_when o)) /\
  (forall p, In p (c_positionals (snd x)) -> parses e (p_when p)).

Lemma parsed_apply e cf root :
  fold_res (fun _ x => add_parsed_when e (snd x)) (visit_commandlines [] (apply_config cf root)) tt = Ok tt <->
  (cf_disabled_when cf = false -> forall x, In x (visit_commandlines [] root) -> whens_parse e x).
Proof.
  rewrite (fold_unit_iff (fun x => add_parsed_when e (snd x))).
  change (@nil cmd) with (map (apply_config cf) []) at 1. rewrite visit_apply, in_map_all.
  unfold add_parsed_when, image, whens_parse, parses; cbn [snd].
  assert (X : forall x, (do _ <- fold_res (fun _ o => parse_when_of e (o_when o)) (c_options (apply_config cf x)) tt;
                         fold_res (fun _ p => parse_when_of e (p_when p)) (c_positionals (apply_config cf x)) tt) = Ok tt <->
     (cf_disabled_when cf = false ->
      (forall o, In o (c_options x) -> parse_when_of e (o_when o) = Ok tt) /\
      (forall p, In p (c_positionals x) -> parse_when_of e (p_when p) = Ok tt))).
  { intros x. rewrite bind_tt.
    rewrite (fold_unit_iff (fun o => parse_when_of e (o_when o))).
    rewrite (fold_unit_iff (fun o => parse_when_of e (p_when o))).
    rewrite apply_eq. cbn [c_options c_positionals]. rewrite !in_map_all.
    cbn [apply_option apply_positional o_when p_when]. destruct (cf_disabled_when cf).
    - split; [discriminate|]. intros _. split; reflexivity.
    - split; auto. }
  setoid_rewrite X. split; intros H; [intros D x Hx; apply (H x Hx D)|intros x Hx D; apply (H D x Hx)].
Qed.

Lemma enhance_iff e cf root r : built root ->
  enhance_commandline e cf root = Ok r <->
  r = apply_config cf root /\
  (cf_disabled_when cf = false -> forall x, In x (visit_commandlines [] root) -> whens_parse e x) /\
  validate_commandlines e (apply_config cf root) = Ok tt.
Proof.
  intros B. unfold enhance_commandline. rewrite copy_built by auto. cbn [bind].
  rewrite <- parsed_apply.
  destruct (fold_res _ _ tt) as [x|[]]; cbn [bind].
  - split; [discriminate|]. intros (_ & H & _). discriminate.
  - destruct (validate_commandlines _ _) as [x|[]]; cbn [bind].
    + split; [discriminate|]. intros (_ & _ & H). discriminate.
    + split; [intros H; apply Ok_inj in H; auto|]. intros (-> & _). reflexivity.
Qed.

Lemma built_no_hidden_repeatable root ps c o : built root -> located root ps c -> In o (c_options c) ->
  o_hidden o = true -> o_repeatable o <> XTrue.
Proof.
  intros B L Ho. pose proof (built_valid _ _ _ B L) as V.
  destruct V as (_ & _ & V & _). destruct (V o Ho) as (_ & _ & _ & _ & _ & V'). intros H1 H2. auto.
Qed.

Lemma plain_no_conflict root b ps c o : built root -> located root ps c -> In o (c_options c) ->
  no_conflict (plain b) o.
Proof.
  intros B L Ho H _. cbn. split; [reflexivity|]. split; [|reflexivity].
  apply (built_no_hidden_repeatable root ps c); auto.
Qed.

Lemma visited root ps c : In (ps, c) (visit_commandlines [] root) <-> located root ps c.
Proof.
  rewrite visit_iff. split.
  - intros (rs & -> & H). rewrite app_nil_r. exact H.
  - intros H. exists ps. rewrite app_nil_r. auto.
Qed.

Lemma accepted_iff e cf root : built root ->
  (exists r, enhance_commandline e cf root = Ok r) <->
  (exists r, enhance_commandline e (plain (cf_disabled_when cf)) root = Ok r) /\
  forall ps c o, located root ps c -> short_path ps c -> In o (c_options c) -> no_conflict cf o.
Proof.
  intros B. setoid_rewrite (enhance_iff e _ root _ B). setoid_rewrite validate_apply.
  cbn [plain cf_disabled_when]. split.
  - intros (r & _ & H1 & H2 & H3). split.
    + eexists. split; [reflexivity|]. split; [exact H1|]. split; [exact H2|].
      intros [ps c] Hx Sx. split; [apply (H3 _ Hx Sx)|]. intros o Ho.
      apply (plain_no_conflict root _ ps c); auto. apply visited; auto.
    + intros ps c o L Sx Ho. apply visited in L. apply (proj2 (H3 (ps, c) L Sx) o Ho).
  - intros ((r & _ & H1 & H2 & H3) & H4). eexists. split; [reflexivity|]. split; [exact H1|].
    split; [exact H2|]. intros [ps c] Hx Sx. split; [apply (H3 _ Hx Sx)|].
    intros o Ho. apply (H4 ps c); auto. apply visited; auto.
Qed.

Lemma accepted_ignoring_when e root : built root ->
  (exists r, enhance_commandline e (plain false) root = Ok r) ->
  (exists r, enhance_commandline e (plain true) root = Ok r).
Proof.
  intros B. setoid_rewrite (enhance_iff e _ root _ B). setoid_rewrite validate_apply.
  cbn [plain cf_disabled_when]. intros (r & _ & H1 & H2 & H3).
  eexists. split; [reflexivity|]. split; [discriminate|]. split; [exact H2|].
  intros [ps c] Hx Sx. split; [discriminate|].
  intros o Ho. apply (plain_no_conflict root _ ps c); auto. apply visited; auto.
Qed.

Lemma Forall2_in_r {A B} (R : A -> B -> Prop) l l' y : Forall2 R l l' -> In y l' ->
  exists x, In x l /\ R x y.
Proof.
  induction 1; cbn; [intros []|]. intros [->|H1]; [eauto|]. destruct (IHForall2 H1) as (z & ? & ?); eauto.
Qed.

Lemma configured_resolved cf c r : configured cf c r ->
  c_abbrev_cmds r <> XInherit /\ c_abbrev_opts r <> XInherit /\ c_inherit r <> XInherit /\
  forall o, In o (c_options r) -> o_repeatable o <> XInherit /\ o_sep o <> SepInherit.
Proof.
  assert (D : forall b x y, decided b x y -> y <> XInherit).
  { intros b x y [[-> ->]|[H ->]]; [destruct b; discriminate|auto]. }
  intros [_ _ _ _ H1 H2 H3 H4 _ _ _]. repeat split; eauto; intros E.
  - destruct (Forall2_in_r _ _ _ _ H4 H) as (o' & _ & C). destruct C.
    destruct (cf_disabled_repeatable cf); [congruence|]. eapply D; eauto.
  - destruct (Forall2_in_r _ _ _ _ H4 H) as (o' & _ & C). 
    destruct (co_sep _ _ _ C) as [[? E']|[? E']]; [destruct (cf_long_opt_arg_sep cf)|]; congruence.
Qed.

Lemma apply_located cf root qs d : located (apply_config cf root) qs d ->
  exists ps c, located root ps c /\ qs = map (apply_config cf) ps /\ d = apply_config cf c.
Proof.
  intros H. apply visited in H. change (@nil cmd) with (map (apply_config cf) []) in H.
  rewrite visit_apply in H. apply in_map_iff in H as ([ps c] & E & Hx).
  exists ps, c. apply visited in Hx. unfold image in E; cbn in E. injection E as <- <-. auto.
Qed.
