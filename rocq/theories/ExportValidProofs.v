(** * Proofs about the validation of exported command lines (C136) *)
From Verif Require Import Base Dict Value StrUtils Cli DictSource When SchemeValidator SpecCli
  CliProofs CliMore SpecScheme SchemeNested SchemeProofs SpecDict DictSourceProofs Generation SpecGeneration GenerationProofs.
Open Scope list_scope.

Lemma entries_items rules l :
  (forall k v, In (k, Some v) l -> exists r, find_rule rules (VStr k) = Some r /\
     check_type v (r_types r) = Ok tt /\ r_check r v = Ok tt) ->
  check_items rules (entries l) = Ok tt.
Proof.
  induction l as [|[k [v|]] l IH]; intros H; cbn [entries]; [reflexivity| |].
  - cbn [check_items]. destruct (H k v (or_introl eq_refl)) as (r & -> & -> & ->). cbn [bind].
    apply IH. intros; apply H; now right.
  - apply IH. intros; apply H; now right.
Qed.

Lemma dmem_vget k d : dmem value_eqb (VStr k) d = match vget k d with Some _ => true | None => false end.
Proof. reflexivity. Qed.

Definition option_entries (o : opt) : dict :=
  match option_to_dictionary o with VDict d => d | _ => [] end.
Definition positional_entries (p : pos) : dict :=
  match positional_to_dictionary p with VDict d => d | _ => [] end.
Definition command_entries (ps : list cmd) (c : cmd) : dict :=
  match commandline_to_dictionary ps c with VDict d => d | _ => [] end.

Ltac entry_case H := apply pair_equal_spec in H; destruct H as [<- H].
Ltac entry_ok := eexists; split; [reflexivity|]; split; reflexivity.

Lemma option_items o : check_dictionary (option_entries o) option_rules = Ok tt.
Proof.
  unfold check_dictionary.
  assert (H : check_items option_rules (option_entries o) = Ok tt).
  { unfold option_entries, option_to_dictionary. apply entries_items. intros k v Hin. cbn [In] in Hin.
    repeat (destruct Hin as [Hin|Hin]; [entry_case Hin|]); [..|destruct Hin].
    - injection Hin as <-. entry_ok.
    - destruct (o_metavar o); [|discriminate]. injection Hin as <-. entry_ok.
    - destruct (o_help o); [|discriminate]. injection Hin as <-. entry_ok.
    - destruct (o_optional_arg o); [|discriminate]. injection Hin as <-. entry_ok.
    - destruct (o_groups o); [|discriminate]. injection Hin as <-. entry_ok.
    - destruct (o_repeatable o); [| |discriminate]; injection Hin as <-; entry_ok.
    - destruct (o_final o); [|discriminate]. injection Hin as <-. entry_ok.
    - destruct (o_hidden o); [|discriminate]. injection Hin as <-. entry_ok.
    - destruct (o_complete o) as [[|x l]|]; try discriminate. injection Hin as <-. entry_ok.
    - destruct (o_nosort o); [|discriminate]. injection Hin as <-. entry_ok.
    - destruct (o_when o); [|discriminate]. injection Hin as <-. entry_ok.
    - destruct (o_capture o); [|discriminate]. injection Hin as <-. entry_ok.
    - destruct (o_sep o); try discriminate; injection Hin as <-; entry_ok. }
  rewrite H. reflexivity.
Qed.
Lemma positional_items p : check_dictionary (positional_entries p) positional_rules = Ok tt.
Proof.
  unfold check_dictionary.
  assert (H : check_items positional_rules (positional_entries p) = Ok tt).
  { unfold positional_entries, positional_to_dictionary. apply entries_items. intros k v Hin. cbn [In] in Hin.
    repeat (destruct Hin as [Hin|Hin]; [entry_case Hin|]); [..|destruct Hin].
    - injection Hin as <-. entry_ok.
    - destruct (p_metavar p); [|discriminate]. injection Hin as <-. entry_ok.
    - destruct (p_help p); [|discriminate]. injection Hin as <-. entry_ok.
    - destruct (p_repeatable p); [|discriminate]. injection Hin as <-. entry_ok.
    - destruct (p_complete p); [discriminate|]. injection Hin as <-. entry_ok.
    - destruct (p_nosort p); [|discriminate]. injection Hin as <-. entry_ok.
    - destruct (p_when p); [|discriminate]. injection Hin as <-. entry_ok.
    - destruct (p_capture p); [|discriminate]. injection Hin as <-. entry_ok. }
  rewrite H. reflexivity.
Qed.
Lemma command_items ps c : check_dictionary (command_entries ps c) definition_rules = Ok tt.
Proof.
  unfold check_dictionary.
  assert (H : check_items definition_rules (command_entries ps c) = Ok tt).
  { unfold command_entries, commandline_to_dictionary. apply entries_items. intros k v Hin. cbn [In] in Hin.
    repeat (destruct Hin as [Hin|Hin]; [entry_case Hin|]); [..|destruct Hin].
    - injection Hin as <-. entry_ok.
    - destruct (c_aliases c); [discriminate|]. injection Hin as <-. entry_ok.
    - destruct (c_help c); [|discriminate]. injection Hin as <-. entry_ok.
    - destruct (c_wraps c); [|discriminate]. injection Hin as <-. entry_ok.
    - destruct (c_abbrev_cmds c); [| |discriminate]; injection Hin as <-; entry_ok.
    - destruct (c_abbrev_opts c); [| |discriminate]; injection Hin as <-; entry_ok.
    - destruct (c_inherit c); [| |discriminate]; injection Hin as <-; entry_ok.
    - destruct (c_options c); [discriminate|]. injection Hin as <-. entry_ok.
    - destruct (c_positionals c); [discriminate|]. injection Hin as <-. entry_ok. }
  rewrite H. reflexivity.
Qed.

(** ** Options *)
Lemma set_text d k (w : option str) : vget (s k) d = option_map VStr w -> has_set d k = given w.
Proof. unfold has_set. intros ->. destruct w; reflexivity. Qed.
Lemma when_checked e d k w : vget (s k) d = option_map VStr w ->
  check_if (has_set d k) (check_when e) (vget (s k) d) = Ok tt <-> when_fine e w.
Proof. intros E. rewrite (set_text d k w E), E, <- when_check_fine. destruct w; reflexivity. Qed.
Lemma capture_checked d k w : vget (s k) d = option_map VStr w ->
  check_if (has_set d k) check_variable_name (vget (s k) d) = Ok tt <-> capture_fine w.
Proof. intros E. rewrite (set_text d k w E), E, <- capture_check_fine. destruct w; reflexivity. Qed.
Lemma complete_checked e c d k (l : option (list value)) : l <> Some [] ->
  vget (s k) d = match l with Some x => list_entry VList x | None => None end ->
  has_set d k = given l /\
  (check_if (has_set d k) (fun x => do _ <- check_complete e c [] x; Ok tt) (vget (s k) d) = Ok tt <-> completer_fine e c l).
Proof.
  intros Hl E. unfold has_set. rewrite E, <- complete_fine. destruct l as [[|x l]|]; [now destruct Hl| |]; split; reflexivity.
Qed.

Lemma exported_option e P o : o_complete o <> Some [] ->
  check_option e P (option_to_dictionary o) = Ok tt <->
  option_fine e o /\ when_fine e (o_when o) /\ ~ (o_repeatable o = XTrue /\ o_hidden o = true).
Proof.
  intros Hc. change (option_to_dictionary o) with (VDict (option_entries o)).
  rewrite check_option_ok. unfold check_option0. rewrite option_items. cbn [bind].
  assert (V1 : vget (s "option_strings") (option_entries o) = Some (VList (map VStr (o_strings o)))) by reflexivity.
  assert (V2 : vget (s "metavar") (option_entries o) = option_map VStr (o_metavar o)) by (unfold option_entries, option_to_dictionary; entry_keys; reflexivity).
  assert (V3 : vget (s "optional_arg") (option_entries o) = true_entry (o_optional_arg o)) by (unfold option_entries, option_to_dictionary; entry_keys; reflexivity).
  assert (V4 : vget (s "groups") (option_entries o) = option_map vstrs (o_groups o)) by (unfold option_entries, option_to_dictionary; entry_keys; reflexivity).
  assert (V5 : vget (s "repeatable") (option_entries o) = xbool_entry (o_repeatable o)) by (unfold option_entries, option_to_dictionary; entry_keys; reflexivity).
  assert (V6 : vget (s "hidden") (option_entries o) = true_entry (o_hidden o)) by (unfold option_entries, option_to_dictionary; entry_keys; reflexivity).
  assert (V7 : vget (s "complete") (option_entries o) = match o_complete o with Some l => list_entry VList l | None => None end)
    by (unfold option_entries, option_to_dictionary; entry_keys; reflexivity).
  assert (V8 : vget (s "when") (option_entries o) = option_map VStr (o_when o)) by (unfold option_entries, option_to_dictionary; entry_keys; reflexivity).
  assert (V9 : vget (s "capture") (option_entries o) = option_map VStr (o_capture o)) by (unfold option_entries, option_to_dictionary; entry_keys; reflexivity).
  assert (V10 : vget (s "long_opt_arg_sep") (option_entries o) = sep_entry (o_sep o)) by (unfold option_entries, option_to_dictionary; entry_keys; reflexivity).
  assert (V11 : vget (s "group") (option_entries o) = None) by (unfold option_entries, option_to_dictionary; entry_keys; reflexivity).
  assert (B1 : is_true (option_entries o) "optional_arg" = o_optional_arg o) by (unfold is_true; rewrite V3; destruct (o_optional_arg o); reflexivity).
  assert (B2 : is_true (option_entries o) "hidden" = o_hidden o) by (unfold is_true; rewrite V6; destruct (o_hidden o); reflexivity).
  assert (B3 : is_true (option_entries o) "repeatable" = true <-> o_repeatable o = XTrue)
    by (unfold is_true; rewrite V5; destruct (o_repeatable o); cbn; split; congruence).
  assert (B4 : has_set (option_entries o) "group" = false) by (unfold has_set; rewrite V11; reflexivity).
  assert (B5 : check_if (has_set (option_entries o) "long_opt_arg_sep") check_sep (vget (s "long_opt_arg_sep") (option_entries o)) = Ok tt)
    by (unfold has_set; rewrite V10; destruct (o_sep o); reflexivity).
  assert (B6 : (if has_set (option_entries o) "groups" then on_list (fun g => check_type g [TStr]) (vget (s "groups") (option_entries o)) else Ok tt) = (Ok tt : res unit)).
  { unfold has_set. rewrite V4. destruct (o_groups o) as [l|]; [|reflexivity]. cbn [option_map vstrs on_list].
    apply each_iff. intros v Hv. apply in_map_iff in Hv as (x & <- & _). reflexivity. }
  destruct (complete_checked e (MkCtx None P) _ _ _ Hc V7) as [B7 B8].
  pose proof (when_checked e _ _ _ V8) as B9. pose proof (capture_checked _ _ _ V9) as B10. pose proof (set_text _ _ _ V2) as B11.
  pose proof (option_strings_fine o) as S. change (vget (s "option_strings") (option_to_definition o)) with (Some (VList (map VStr (o_strings o)))) in S.
  rewrite bind_tt in S.
  rewrite V1, B1, B2, B4, B6, B7, B11. cbn [andb]. rewrite !bind_tt, !if_ok, !bind_tt.
  rewrite B7 in B8. rewrite B8, B9, B10, B5. rewrite !and_not_false, !given_true.
  assert (C : completer_fine e (MkCtx None P) (o_complete o) <-> completer_fine e (MkCtx None VNone) (o_complete o)).
  { unfold completer_fine. split; intros H l E; destruct (H l E) as [t Ht]; exists t; rewrite <- Ht; [symmetry|]; apply complete_same; apply option_ctx_same. }
  rewrite C.
  assert (R : is_true (option_entries o) "repeatable" && o_hidden o = false <-> ~ (o_repeatable o = XTrue /\ o_hidden o = true)).
  { rewrite <- B3. destruct (is_true (option_entries o) "repeatable"), (o_hidden o); cbn; intuition congruence. }
  rewrite R. unfold option_fine. tauto.
Qed.

(** ** Positionals *)
Section Positional.
Variable p : pos.
Lemma p_number_get : vget (s "number") (positional_entries p) = Some (VInt (p_number p)).
Proof. reflexivity. Qed.
Lemma p_repeatable_get : vget (s "repeatable") (positional_entries p) = true_entry (p_repeatable p).
Proof. unfold positional_entries, positional_to_dictionary; entry_keys; reflexivity. Qed.
Lemma p_complete_get : vget (s "complete") (positional_entries p) = list_entry VList (p_complete p).
Proof. unfold positional_entries, positional_to_dictionary; entry_keys; reflexivity. Qed.
Lemma p_when_get : vget (s "when") (positional_entries p) = option_map VStr (p_when p).
Proof. unfold positional_entries, positional_to_dictionary; entry_keys; reflexivity. Qed.
Lemma p_capture_get : vget (s "capture") (positional_entries p) = option_map VStr (p_capture p).
Proof. unfold positional_entries, positional_to_dictionary; entry_keys; reflexivity. Qed.
End Positional.

Definition pos_exported (l : list pos) : list value := map positional_to_dictionary l.

Lemma exported_ctx l p : (forall q, In q l -> p_complete q <> []) -> forall tr args,
  check_command_arg (MkCtx (Some (positional_entries p)) (VList (pos_exported l))) tr args =
  check_command_arg (MkCtx (Some (positional_to_definition p)) (VList (pos_defs l))) tr args.
Proof.
  intros Hl tr args. unfold check_command_arg. destruct (check_void args); cbn [bind]; [reflexivity|].
  destruct (last_in tr _); [reflexivity|]. cbn [cx_positional cx_positionals].
  assert (R : negb (has_set (positional_entries p) "repeatable") ||
     negb (match vget (s "repeatable") (positional_entries p) with Some v => truthy v | None => false end) = negb (p_repeatable p)).
  { unfold has_set. rewrite p_repeatable_get. destruct (p_repeatable p); reflexivity. }
  rewrite R. change (negb (has_set (positional_to_definition p) "repeatable") ||
     negb (match vget (s "repeatable") (positional_to_definition p) with Some v => truthy v | None => false end)) with (false || negb (p_repeatable p)).
  cbn [orb]. destruct (negb (p_repeatable p)); [reflexivity|].
  assert (E : any_res (command_is_previous (positional_entries p)) (pos_exported l) =
              any_res (command_is_previous (positional_to_definition p)) (pos_defs l)).
  { unfold pos_exported, pos_defs. induction l as [|q l IH]; [reflexivity|]. cbn [map any_res].
    assert (Q : command_is_previous (positional_entries p) (positional_to_dictionary q) =
      command_is_previous (positional_to_definition p) (VDict (positional_to_definition q))).
    { change (positional_to_dictionary q) with (VDict (positional_entries q)). unfold command_is_previous, has_set.
      rewrite p_complete_get. change (vget (s "complete") (positional_to_definition q)) with (Some (VList (p_complete q))).
      specialize (Hl q (or_introl eq_refl)). destruct (p_complete q) as [|x rest]; [now destruct Hl|]. reflexivity. }
    rewrite Q. rewrite IH by (intros r Hr; apply Hl; now right). reflexivity. }
  rewrite E. reflexivity.
Qed.

Lemma exported_positional e l p : In p l -> (forall q, In q l -> p_complete q <> []) ->
  check_positional e (VList (pos_exported l)) (positional_to_dictionary p) = Ok tt <->
  positional_fine e l p /\ when_fine e (p_when p).
Proof.
  intros Hp Hl. change (positional_to_dictionary p) with (VDict (positional_entries p)).
  unfold check_positional. rewrite positional_items. cbn [bind].
  change (get_number (positional_entries p)) with (Ok (p_number p) : res Z). cbn [bind].
  rewrite if_ok, !bind_tt.
  assert (Hn : Some (p_complete p) <> Some []) by (intros E; injection E; apply Hl, Hp).
  destruct (complete_checked e (MkCtx (Some (positional_entries p)) (VList (pos_exported l))) (positional_entries p) "complete" (Some (p_complete p)) Hn (p_complete_get p)) as [_ C].
  rewrite C, (when_checked e _ _ _ (p_when_get p)), (capture_checked _ _ _ (p_capture_get p)).
  assert (S : completer_fine e (MkCtx (Some (positional_entries p)) (VList (pos_exported l))) (Some (p_complete p)) <->
    completer_fine e (MkCtx (Some (positional_to_definition p)) (VList (pos_defs l))) (Some (p_complete p))).
  { unfold completer_fine. setoid_rewrite (complete_same e _ _ (exported_ctx l p Hl)). reflexivity. }
  rewrite S. unfold positional_fine. rewrite Z.ltb_ge. tauto.
Qed.

(** ** Commands *)
Definition filled_completers (c : cmd) : Prop :=
  (forall o, In o (c_options c) -> o_complete o <> Some []) /\ (forall p, In p (c_positionals c) -> p_complete p <> []).

Lemma each_nil (f : value -> res unit) : each f [] = Ok tt.
Proof. reflexivity. Qed.
Lemma exported_command e ps c : filled_completers c ->
  check_definition e (command_entries ps c) = Ok tt <-> check_definition e (commandline_to_definition ps c) = Ok tt.
Proof.
  intros [Fo Fp]. rewrite check_definition_iff. unfold check_definition. rewrite command_items. cbn [bind]. rewrite !bind_tt.
  assert (V1 : vget (s "prog") (command_entries ps c) = Some (VStr (get_command_path ps c))) by reflexivity.
  assert (V2 : vget (s "aliases") (command_entries ps c) = list_entry vstrs (c_aliases c)) by (unfold command_entries, commandline_to_dictionary; entry_keys; reflexivity).
  assert (V3 : vget (s "wraps") (command_entries ps c) = option_map VStr (c_wraps c)) by (unfold command_entries, commandline_to_dictionary; entry_keys; reflexivity).
  assert (V4 : vget (s "options") (command_entries ps c) = list_entry (fun l => VList (map option_to_dictionary l)) (c_options c))
    by (unfold command_entries, commandline_to_dictionary; entry_keys; reflexivity).
  assert (V5 : vget (s "positionals") (command_entries ps c) = list_entry (fun l => VList (map positional_to_dictionary l)) (c_positionals c))
    by (unfold command_entries, commandline_to_dictionary; entry_keys; reflexivity).
  assert (A : (if has_set (command_entries ps c) "aliases" then on_list check_extension (vget (s "aliases") (command_entries ps c)) else Ok tt) = Ok tt <->
    each check_extension (map VStr (c_aliases c)) = Ok tt).
  { unfold has_set. rewrite V2. destruct (c_aliases c); [split; reflexivity|]. reflexivity. }
  assert (W : check_if (has_set (command_entries ps c) "wraps") (check_wraps (command_entries ps c)) (vget (s "wraps") (command_entries ps c)) = Ok tt <->
    forall w, c_wraps c = Some w -> check_wraps [key "prog" (VStr (get_command_path ps c))] (VStr w) = Ok tt).
  { unfold has_set. rewrite V3. destruct (c_wraps c) as [w|]; cbn [option_map check_if].
    - split; [intros H w' E; injection E as <-; exact H|intros H; exact (H w eq_refl)].
    - split; [intros _ w' E; discriminate|reflexivity]. }
  assert (O : forall P, (if has_set (command_entries ps c) "options" then on_list (check_option e P) (vget (s "options") (command_entries ps c)) else Ok tt) = Ok tt <->
    forall o, In o (c_options c) -> option_fine e o /\ when_fine e (o_when o) /\ ~ (o_repeatable o = XTrue /\ o_hidden o = true)).
  { intros P. unfold has_set. rewrite V4. transitivity (each (check_option e P) (map option_to_dictionary (c_options c)) = Ok tt).
    { destruct (c_options c); [split; reflexivity|]. reflexivity. }
    rewrite each_iff, in_map_all. split; intros H o Ho; apply (exported_option e P o (Fo o Ho)), H, Ho. }
  assert (Q : (if has_set (command_entries ps c) "positionals"
      then on_list (check_positional e (getd (s "positionals") VNone (command_entries ps c))) (vget (s "positionals") (command_entries ps c)) else Ok tt) = Ok tt <->
    forall p, In p (c_positionals c) -> positional_fine e (c_positionals c) p /\ when_fine e (p_when p)).
  { unfold has_set, getd. rewrite V5. transitivity (each (check_positional e (VList (pos_exported (c_positionals c)))) (map positional_to_dictionary (c_positionals c)) = Ok tt).
    { unfold pos_exported. destruct (c_positionals c); [split; reflexivity|]. reflexivity. }
    rewrite each_iff, in_map_all. split; intros H p Hp; apply (exported_positional e _ p Hp Fp), H, Hp. }
  rewrite A, W, O, Q, V1. cbn [check_if]. setoid_rewrite check_option_iff. setoid_rewrite check_positional_iff. unfold head_fine. tauto.
Qed.

Lemma checked_filled e ps c : check_definition e (commandline_to_definition ps c) = Ok tt -> filled_completers c.
Proof.
  intros H. apply check_definition_iff in H as (_ & Ho & Hp). split.
  - intros o Hin E. specialize (Ho o Hin). apply check_option_iff in Ho as ((_ & _ & _ & _ & C & _) & _).
    destruct (C [] E) as [t Ht]. discriminate Ht.
  - intros p Hin E. specialize (Hp p Hin). apply check_positional_iff in Hp as ((_ & C & _) & _).
    destruct (C (p_complete p) eq_refl) as [t Ht]. rewrite E in Ht. discriminate Ht.
Qed.

(** ** Lists of definitions *)
Definition exported_doc (x : list cmd * cmd) : value := commandline_to_dictionary (fst x) (snd x).
Lemma exported_words x : words (exported_doc x) = words (doc_of x).
Proof. reflexivity. Qed.
Lemma exported_names x : names_program (exported_doc x) <-> names_program (doc_of x).
Proof.
  rewrite names_doc. unfold names_program. split.
  - intros (d & p & E & G & V). injection E as <-. change (Some (VStr (get_command_path (fst x) (snd x))) = Some (VStr p)) in G. injection G as ->. exact V.
  - intros V. exists (command_entries (fst x) (snd x)), (get_command_path (fst x) (snd x)). repeat split; exact V.
Qed.
Lemma exported_list_words root : map words (commandline_to_dictionaries root) = map words (definition_list root).
Proof. unfold commandline_to_dictionaries, definition_list. rewrite !map_map. apply map_ext. intros x. apply exported_words. Qed.

Lemma exported_of p n r : positional_of (positional_to_dictionary p) n r <-> positional_of (VDict (positional_to_definition p)) n r.
Proof.
  assert (T : match vget (s "repeatable") (positional_entries p) with Some x => truthy x | None => false end =
    match vget (s "repeatable") (positional_to_definition p) with Some x => truthy x | None => false end).
  { rewrite p_repeatable_get. change (vget (s "repeatable") (positional_to_definition p)) with (Some (VBool (p_repeatable p))). destruct (p_repeatable p); reflexivity. }
  change (positional_to_dictionary p) with (VDict (positional_entries p)). unfold positional_of. split; intros (d & E & N & R).
  - exists (positional_to_definition p). split; [reflexivity|]. assert (positional_entries p = d) by congruence. subst d. rewrite <- T. split; [exact N|exact R].
  - exists (positional_entries p). split; [reflexivity|]. assert (positional_to_definition p = d) by congruence. subst d. rewrite T. split; [exact N|exact R].
Qed.
Lemma exported_positionals x : positionals_of (exported_doc x) = pos_exported (c_positionals (snd x)).
Proof.
  change (exported_doc x) with (VDict (command_entries (fst x) (snd x))). cbn [positionals_of].
  assert (V5 : vget (s "positionals") (command_entries (fst x) (snd x)) = list_entry (fun l => VList (map positional_to_dictionary l)) (c_positionals (snd x)))
    by (unfold command_entries, commandline_to_dictionary; entry_keys; reflexivity).
  rewrite V5. unfold pos_exported. destruct (c_positionals (snd x)); reflexivity.
Qed.
Lemma exported_last x : last_repeatable (positionals_of (exported_doc x)) <-> last_repeatable (positionals_of (doc_of x)).
Proof.
  rewrite exported_positionals, positionals_doc. unfold last_repeatable, pos_defs, pos_exported.
  split; intros H v n w m r Hv Hw Pv Pw; apply in_map_iff in Hv as (p & <- & Hp); apply in_map_iff in Hw as (q & <- & Hq).
  - apply (H (positional_to_dictionary p) n (positional_to_dictionary q) m r); [now apply in_map|now apply in_map|now apply exported_of|now apply exported_of].
  - apply (H (VDict (positional_to_definition p)) n (VDict (positional_to_definition q)) m r);
      [apply in_map_iff; eauto|apply in_map_iff; eauto|now apply exported_of|now apply exported_of].
Qed.
Lemma exported_some x : some_repeatable (positionals_of (exported_doc x)) <-> some_repeatable (positionals_of (doc_of x)).
Proof.
  rewrite exported_positionals, positionals_doc. unfold some_repeatable, pos_defs, pos_exported.
  split; intros (v & n & Hv & P); apply in_map_iff in Hv as (p & <- & Hp).
  - exists (VDict (positional_to_definition p)), n. split; [apply in_map_iff; eauto|now apply exported_of].
  - exists (positional_to_dictionary p), n. split; [now apply in_map|now apply exported_of].
Qed.

Lemma exported_right e root x : filled_completers (snd x) ->
  right e (commandline_to_dictionaries root) (exported_doc x) <-> right e (definition_list root) (doc_of x).
Proof.
  intros F. unfold right. rewrite exported_last, exported_some.
  assert (S : has_subcommand (commandline_to_dictionaries root) (exported_doc x) <-> has_subcommand (definition_list root) (doc_of x)).
  { split; apply has_subcommand_words; rewrite ?exported_list_words, ?exported_words; reflexivity. }
  rewrite S.
  assert (D : (exists d, exported_doc x = VDict d /\ check_definition e d = Ok tt) <-> (exists d, doc_of x = VDict d /\ check_definition e d = Ok tt)).
  { pose proof (exported_command e (fst x) (snd x) F) as K. split; intros (d & E & H); injection E as <-; eexists; (split; [reflexivity|]); apply K, H. }
  rewrite D. reflexivity.
Qed.

Lemma exported_iff e root :
  (forall x, In x (visit_commandlines [] root) -> short_path (fst x) (snd x) -> filled_completers (snd x)) ->
  validate e (commandline_to_dictionaries root) = Ok tt <-> validate_commandlines e root = Ok tt.
Proof.
  intros F. unfold validate_commandlines. rewrite !validate_iff, exported_list_words.
  assert (N : Forall names_program (commandline_to_dictionaries root) <-> Forall names_program (definition_list root)).
  { rewrite !Forall_forall. unfold commandline_to_dictionaries, definition_list. rewrite !in_map_all.
    split; intros H x Hx; apply exported_names, H, Hx. }
  assert (P : parents_first (commandline_to_dictionaries root) <-> parents_first (definition_list root))
    by (split; apply parents_first_words; rewrite exported_list_words; reflexivity).
  assert (R : (forall v, In v (commandline_to_dictionaries root) -> length (words v) <= 2 -> right e (commandline_to_dictionaries root) v) <->
    (forall v, In v (definition_list root) -> length (words v) <= 2 -> right e (definition_list root) v)).
  { unfold commandline_to_dictionaries at 1, definition_list at 1. rewrite !in_map_all.
    split; intros H x Hx L; apply (exported_right e root x (F x Hx L)), (H x Hx L). }
  rewrite N, P, R. split; intros (H1 & H2 & H3 & H4 & H5); (split; [exact H1|]; split; [exact H2|]; split; [exact H3|]; split; [|exact H5]).
  - apply (one_program_words (commandline_to_dictionaries root)); rewrite ?exported_list_words; auto.
  - apply (one_program_words (definition_list root)); rewrite ?exported_list_words; auto.
Qed.

Lemma accepted_filled e root : validate_commandlines e root = Ok tt ->
  forall x, In x (visit_commandlines [] root) -> short_path (fst x) (snd x) -> filled_completers (snd x).
Proof.
  intros H x Hx L. unfold validate_commandlines in H. apply validate_iff in H as (_ & _ & _ & _ & H).
  destruct (H (doc_of x)) as [(d & E & K) _]; [unfold definition_list; apply in_map_iff; exists x; split; [reflexivity|exact Hx] | exact L|].
  injection E as <-. now apply checked_filled in K.
Qed.

(** ** What is accepted under a configuration *)
Lemma accepted_bare e root : tree_fine e root ->
  (forall x, In x (visit_commandlines [] root) -> short_path (fst x) (snd x) -> whens_fine e x /\
     forall o, In o (c_options (snd x)) -> ~ (o_repeatable o = XTrue /\ o_hidden o = true)) ->
  validate_commandlines e root = Ok tt.
Proof.
  intros (H1 & H2 & H3 & H4 & H5) H. unfold validate_commandlines. apply validate_iff.
  split; [apply Forall_forall; unfold definition_list; rewrite in_map_all; exact H1|].
  split; [exact H2|]. split; [exact H3|]. split; [exact H4|].
  intros v Hv. unfold definition_list in Hv. apply in_map_iff in Hv as (x & <- & Hx). intros L. destruct (H x Hx L) as [[W1 W2] C].
  destruct (H5 x Hx L) as (F1 & F2 & F3 & F4 & F5). unfold right. split; [|split; [exact F4|exact F5]].
  exists (commandline_to_definition (fst x) (snd x)). split; [reflexivity|]. apply check_definition_iff. split; [exact F1|]. split.
  - intros o Ho. apply check_option_iff. split; [apply F2, Ho|]. split; [apply W1, Ho|apply C, Ho].
  - intros p Hp. apply check_positional_iff. split; [apply F3, Hp|apply W2, Hp].
Qed.

Lemma accepted_under e cf root r : built root -> cf_disabled_when cf = false ->
  enhance_commandline e cf root = Ok r -> validate_commandlines e root = Ok tt.
Proof.
  intros B D H. apply (enhance_iff e cf root r B) in H as (-> & _ & H). apply validate_apply in H as [H1 H2].
  apply accepted_bare; [exact H1|]. intros [ps c] Hx L. destruct (H2 _ Hx L) as [W _]. split; [apply W, D|]. intros o Ho.
  assert (N : no_conflict (SpecGeneration.plain false) o) by (apply (plain_no_conflict root _ ps c); auto; apply visited; auto).
  apply no_conflict_iff in N. intros [E1 E2]. apply N. unfold apply_option. cbn. rewrite E1, E2. split; reflexivity.
Qed.
