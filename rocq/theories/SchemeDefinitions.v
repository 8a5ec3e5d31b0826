(** * Proofs about the forms that validation accepts (C84): options, positionals, commands. *)
From Verif Require Import Base Dict Value StrUtils StrUtilsProofs Cli DictSource When SchemeValidator SpecScheme
  SchemeNested SchemeProofs SpecCli CliMore SpecValid SchemeForms SchemeKinds SchemeWritten.
Local Open Scope string_scope.
Local Open Scope list_scope.

Section Fine.
Variables (e : env) (c : ctx).
Hypothesis Hc : plain_context c.

Lemma written_iff enc n args : written e c enc (VList (VStr n :: args)) <->
  exists k, dget str_eqb n commands = Some k /\ form_of e c enc k args.
Proof.
  unfold written. split.
  - intros (names & P & m & args' & H & Hm & E & HP). injection E as -> ->.
    destruct (manual_kind e c enc names P m H Hm) as (k & Hk & ->). eauto.
  - intros (k & Hk & H). destruct (kind_manual e c enc n k Hk) as (names & m & Hin & Hm & ->).
    exists names, (form_of e c enc k), m, args. auto.
Qed.

Lemma simple_iff enc k args n : dget str_eqb n commands = Some k -> simple_kind k -> proper_args args ->
  check_simple e c enc k args = Ok tt <-> form_of e c enc k args.
Proof.
  intros Hn Hk Hp. destruct k; cbn [check_simple form_of]; try contradiction.
  - apply void_iff.
  - apply none_iff.
  - apply choices_iff.
  - now apply command_iff.
  - now apply command_arg_iff.
  - now apply filedir_iff.
  - apply regex_arg_iff.
  - apply range_iff.
  - apply exec_iff.
  - apply kvl_exec_iff.
  - apply kvp_exec_iff.
  - now apply value_list_iff.
  - apply date_iff.
  - apply ip_iff.
  - assert (T : types = [TInt] \/ types = [TInt; TFloat]).
    { apply (dget_In str_eqb str_eqb_spec) in Hn. unfold commands in Hn. cbn [In] in Hn.
      repeat (destruct Hn as [Hn|Hn]; [apply pair_equal_spec in Hn as [_ Hn]; try discriminate; injection Hn as <-; auto|]).
      destruct Hn. }
    destruct T as [->| ->].
    + apply number_iff; [apply type_int|intros v Hv; left; exact Hv|exact Hp].
    + apply number_iff; [apply type_number|auto|exact Hp].
Qed.

Lemma fine_iff enc x : (forall n args, x = VList (n :: args) -> proper_args args) ->
  fine e c enc x <-> written e c enc x.
Proof.
  intros Hp.
  assert (Hw : written e c enc x -> exists n args, x = VList (VStr n :: args))
    by (intros (names & P & m & args & _ & _ & -> & _); eauto).
  destruct x as [| | | | |x|];
    try (split; [intros [t H]; discriminate|intros H; destruct (Hw H) as (n & args & E); discriminate]).
  destruct x as [|x args]; [split; [intros [t H]; discriminate|intros H; destruct (Hw H) as (n & args & E); discriminate]|].
  destruct x as [| | | |x| |];
    try (split; [intros [t H]; discriminate|intros H; destruct (Hw H) as (n & args' & E); discriminate]).
  clear Hw. specialize (Hp _ _ eq_refl). rewrite written_iff. unfold fine, accepted.
  destruct (classify x) as [E|E|E|E|E|Hx]; [rewrite E in *; clear x E..|].
  - change (blank (VList (VStr (s "combine") :: args))) with
      (VList (VStr (s "combine") :: match args with
         [VList l] => [VList (map (fun _ => harmless) l)] | _ => args end)).
    setoid_rewrite check_combine_eq. split.
    + intros [t H]. exists KCombine. split; [apply get_combine|]. cbn [form_of].
      destruct args as [|[| | | | |l|] [|]]; try discriminate. destruct l as [|a [|b l]]; try discriminate. eauto.
    + intros (k & Hk & H). rewrite get_combine in Hk. injection Hk as <-. destruct H as (a & b & l & ->).
      cbn [check_combine map]. eexists. apply (completers_blank e c _ (a :: b :: l)).
  - change (blank (VList (VStr (s "key_value_list") :: args))) with
      (VList (VStr (s "key_value_list") :: match args with
         a :: b :: VList l :: r => a :: b :: VList (map blank_entry l) :: r | _ => args end)).
    setoid_rewrite check_kvl_eq. split.
    + intros [t H]. exists KKeyValueList. split; [apply get_kvl|]. cbn [form_of].
      destruct args as [|[] [|[] [|[] rest]]]; try discriminate. cbn [check_key_value_list] in H.
      apply bind_ok' in H as ([] & H1 & H). apply bind_ok' in H as ([] & H2 & H).
      apply bind_ok' in H as ([] & H3 & H). apply bind_ok' in H as ([] & H4 & H).
      apply bind_ok' in H as ((t' & ks) & H5 & H). rewrite excludes_blank in H.
      destruct (excludes_exist ks l) eqn:Ex; [|discriminate].
      apply kvl_blank_iff in H5 as (_ & es & Eks & Hes & Hnd & _ & _). cbn [app] in Eks. subst ks.
      apply char_str in H1, H2. apply condition_func_iff in H4.
      pose proof (proj1 (entries_exclude es l _ Hes) Ex) as Hx.
      exists (VStr x), (VStr x0), l, rest, es. split; [reflexivity|]. split; [exact H1|]. split; [exact H2|].
      split; [intros ->; discriminate|]. auto.
    + intros (k & Hk & H). rewrite get_kvl in Hk. injection Hk as <-.
      destruct H as (x & y & l & rest & es & -> & Hx & Hy & Hl & Hr & Hes & Hnd & Hex).
      destruct (char_text _ Hx) as [x' ->], (char_text _ Hy) as [y' ->]. cbn [check_key_value_list].
      apply char_str in Hx, Hy. apply condition_func_iff in Hr. rewrite Hx, Hy. cbn [bind]. 
      assert (H3 : check_non_empty_list (VList (map blank_entry l)) = Ok tt)
        by (destruct l; [now destruct Hl|reflexivity]).
      rewrite H3. cbn [bind]. rewrite Hr. cbn [bind].
      assert (Hf : Forall (fun kx => Forall filled (snd kx)) es).
      { apply Forall_forall. intros kx Hkx. apply Forall_forall. intros k Hk. specialize (Hex kx k Hkx Hk).
        apply in_map_iff in Hex as (kx' & <- & Hkx'). apply (entries_filled es l Hes kx' Hkx'). }
      rewrite (proj2 (kvl_blank_iff e c l (enc ++ [s "key_value_list"]) [] (enc ++ [s "key_value_list"]) (map fst es))).
      2: { split; [reflexivity|]. exists es. split; [reflexivity|]. split; [exact Hes|]. split; [exact Hnd|].
           split; [intros k _ []|exact Hf]. }
      cbn [bind]. rewrite excludes_blank, (proj2 (entries_exclude es l (map fst es) Hes) Hex). eauto.
  - change (blank (VList (VStr (s "key_value_pair") :: args))) with
      (VList (VStr (s "key_value_pair") :: match args with
         a :: VList l :: r => a :: VList (map blank_entry l) :: r | _ => args end)).
    setoid_rewrite check_kvp_eq. split.
    + intros [t H]. exists KKeyValuePair. split; [apply get_kvp|]. cbn [form_of].
      destruct args as [|[] [|[] rest]]; try discriminate. cbn [check_key_value_pair] in H.
      apply bind_ok' in H as ([] & H1 & H). apply bind_ok' in H as ([] & H3 & H). apply bind_ok' in H as ([] & H4 & H).
      apply kvp_blank_iff in H as [_ H]. apply char_str in H1. apply condition_func_iff in H4.
      exists (VStr x), l, rest. split; [reflexivity|]. split; [exact H1|].
      split; [intros ->; discriminate|]. auto.
    + intros (k & Hk & H). rewrite get_kvp in Hk. injection Hk as <-.
      destruct H as (x & l & rest & -> & Hx & Hl & He & Hr).
      destruct (char_text _ Hx) as [x' ->]. cbn [check_key_value_pair].
      apply char_str in Hx. apply condition_func_iff in Hr. rewrite Hx. cbn [bind].
      assert (H3 : check_non_empty_list (VList (map blank_entry l)) = Ok tt)
        by (destruct l; [now destruct Hl|reflexivity]).
      rewrite H3. cbn [bind]. rewrite Hr. cbn [bind]. eexists. apply kvp_blank_iff. split; [reflexivity|exact He].
  - change (blank (VList (VStr (s "list") :: args))) with
      (VList (VStr (s "list") :: match args with _ :: r => harmless :: r | _ => args end)).
    setoid_rewrite check_list_eq. split.
    + intros [t H]. exists KList. split; [apply get_list|]. cbn [form_of].
      destruct args as [|a rest]; [discriminate|]. exists a, rest. split; [reflexivity|].
      cbn [check_list] in H. apply bind_ok' in H as ([] & H1 & _). apply list_options_iff; [|exact H1].
      intros d Hd. apply Hp. right; exact Hd.
    + intros (k & Hk & H). rewrite get_list in Hk. injection Hk as <-. destruct H as (a & rest & -> & H).
      cbn [check_list]. apply list_options_iff in H; [|intros d Hd; apply Hp; right; exact Hd].
      rewrite H. cbn [bind]. eexists. apply check_harmless.
  - change (blank (VList (VStr (s "prefix") :: args))) with
      (VList (VStr (s "prefix") :: match args with [a; _] => [a; harmless] | _ => args end)).
    setoid_rewrite check_prefix_eq. split.
    + intros [t H]. exists KPrefix. split; [apply get_prefix|]. cbn [form_of].
      destruct args as [|a [|b [|]]]; try discriminate; destruct a; try discriminate.
      exists (VStr x), b. split; [reflexivity|]. exists x. reflexivity.
    + intros (k & Hk & H). rewrite get_prefix in Hk. injection Hk as <-. destruct H as (a & b & -> & x & ->).
      cbn [check_prefix]. eexists. apply check_harmless.
  - rewrite (blank_other _ _ Hx). setoid_rewrite (check_other_eq e c enc x args) ; [|exact Hx]. split.
    + intros (t & _ & k & Hk & Hs & H). exists k. split; [exact Hk|]. apply (simple_iff enc k args x Hk Hs Hp). exact H.
    + intros (k & Hk & H). pose proof (other_simple _ _ Hx Hk) as Hs.
      exists enc. split; [reflexivity|]. exists k. split; [exact Hk|]. split; [exact Hs|].
      apply (simple_iff enc k args x Hk Hs Hp). exact H.
Qed.
End Fine.

(** ** Parts *)
Lemma part_trans x y z : part x y -> part y z -> part x z.
Proof. induction 1; intros K; [exact K|eapply part_list; eauto|eapply part_dict; eauto]. Qed.
Lemma part_In l x : In x l -> part (VList l) x.
Proof. intros H. apply (part_list l x x H). constructor. Qed.
Lemma part_vget d k x : vget k d = Some x -> part (VDict d) x.
Proof. intros H. apply vget_In in H. apply (part_dict d _ x x H). constructor. Qed.
Lemma proper_part v x : proper v -> part v x -> proper x.
Proof. intros H Hp d Hd. apply H. eapply part_trans; eassumption. Qed.
Lemma entry_part x y : In y (entry_completer x) -> part x y.
Proof.
  destruct x as [| | | | |l|]; try (intros []). destruct l as [|a [|b [|z l]]]; try (intros []).
  intros H. assert (In y [z]) as [<-|[]] by (destruct z; exact H || destruct H).
  apply part_In. right; right; left; reflexivity.
Qed.
Lemma children_part x y : In y (children x) -> part x y.
Proof.
  destruct x as [| | | | |x|]; try (intros []). destruct x as [|n args]; try (intros []).
  destruct n as [| | | |n| |]; try (intros []).
  destruct (classify n) as [E|E|E|E|E|Hx]; [rewrite E in *; clear n E..|].
  - destruct args as [|[] [|]]; try solve [intros []]. rewrite children_combine. intros H.
    apply (part_list _ (VList l)); [right; left; reflexivity|]. now apply part_In.
  - destruct args as [|a [|b [|[] r]]]; try solve [intros []]. rewrite children_kvl. intros H.
    apply in_flat_map in H as (z & Hz & H). apply (part_list _ (VList l)); [right; right; right; left; reflexivity|].
    apply (part_list _ z); [exact Hz|]. now apply entry_part.
  - destruct args as [|a [|[] r]]; try solve [intros []]. rewrite children_kvp. intros H.
    apply in_flat_map in H as (z & Hz & H). apply (part_list _ (VList l)); [right; right; left; reflexivity|].
    apply (part_list _ z); [exact Hz|]. now apply entry_part.
  - destruct args as [|a r]; [intros []|]. rewrite children_list. intros [<-|[]]. apply part_In. right; left; reflexivity.
  - destruct args as [|a [|b [|]]]; [intros []|intros []| |intros []]. rewrite children_prefix. intros [<-|[]].
    apply part_In. right; right; left; reflexivity.
  - rewrite (children_other _ _ Hx). intros [].
Qed.
Lemma inside_part enc v enc' x : inside enc v enc' x -> part v x.
Proof.
  induction 1 as [|enc' x y _ IH Hy]; [constructor|]. eapply part_trans; [exact IH|]. now apply children_part.
Qed.

Lemma completer_iff e c v : plain_context c -> proper v -> undisturbed v ->
  accepted e c [] v <-> completer_written e c v.
Proof.
  intros Hc Hp Hu. rewrite (accepted_inside e c v [] Hu). unfold completer_written.
  assert (K : forall enc x, inside [] v enc x -> fine e c enc x <-> written e c enc x).
  { intros enc x Hi. apply (fine_iff e c Hc). intros n args -> d Hd. apply inside_part in Hi.
    apply (proper_part _ _ Hp) in Hi. apply Hi. apply part_In. right; exact Hd. }
  split; intros H enc x Hi; apply (K enc x Hi), H, Hi.
Qed.

(** ** Checks behind the dictionary *)
Lemma given_none (P : value -> Prop) : if_given None P.
Proof. intros v E. discriminate. Qed.
Lemma no_check_ok v (P : Prop) : P /\ no_check v = Ok tt <-> P.
Proof. unfold no_check. intuition. Qed.
Lemma given_null_ok o P : if_given o (nullable P) <-> (o = None \/ o = Some VNone \/ exists v, o = Some v /\ P v).
Proof.
  unfold if_given, nullable. destruct o as [v|].
  - split.
    + intros H. destruct (H v eq_refl) as [->|K]; eauto.
    + intros [H|[H|(w & H & K)]] u E; try discriminate; injection E as <-; injection H as ->; auto.
  - split; [auto|intros _ v E; discriminate].
Qed.
Lemma given_checked types f (P : value -> Prop) d k : check_type VNone types = Ok tt ->
  (forall v, v <> VNone -> vget (s k) d = Some v -> (check_type v types = Ok tt /\ f v = Ok tt <-> P v)) ->
  if_given (vget (s k) d) (fun v => check_type v types = Ok tt /\ no_check v = Ok tt) /\
  check_if (has_set d k) f (vget (s k) d) = Ok tt <->
  if_given (vget (s k) d) (nullable P).
Proof.
  intros Hn Hf. unfold has_set. destruct (vget (s k) d) as [v|].
  2: { split; [intros _; apply given_none|intros _; split; [apply given_none|reflexivity]]. }
  rewrite !given_some, no_check_ok. unfold nullable.
  destruct (value_eqb_spec v VNone) as [->|Hv].
  - split; [auto|]. intros _. split; [exact Hn|reflexivity].
  - assert (E : check_if (match v with VNone => false | _ => true end) f (Some v) = f v)
      by (destruct v; congruence || reflexivity).
    change (match (Some v : option value) with None | Some VNone => false | Some _ => true end)
      with (match v with VNone => false | _ => true end).
    rewrite E, (Hf v Hv eq_refl). split; [auto|]. intros [K|K]; [contradiction|exact K].
Qed.
Lemma given_listed f (P : value -> Prop) d k : (forall l v, vget (s k) d = Some (VList l) -> In v l -> (f v = Ok tt <-> P v)) ->
  if_given (vget (s k) d) (fun v => check_type v opt_list = Ok tt /\ no_check v = Ok tt) /\
  (if has_set d k then on_list f (vget (s k) d) else Ok tt) = Ok tt <->
  if_given (vget (s k) d) (nullable (list_of P)).
Proof.
  intros Hf. unfold has_set. destruct (vget (s k) d) as [v|].
  2: { split; [intros _; apply given_none|intros _; split; [apply given_none|reflexivity]]. }
  rewrite !given_some, no_check_ok. unfold opt_list. rewrite type_list_null. unfold nullable, list_of, a_list. split.
  - intros [[->|[l ->]] H]; [auto|]. right. apply on_list_iff in H as (l' & E & H). injection E as <-. exists l.
    split; [reflexivity|]. apply Forall_forall. intros x Hx. apply (Hf l x eq_refl Hx). auto.
  - intros [->|(l & -> & H)]; [auto|]. split; [eauto|]. apply on_list_iff. exists l. split; [reflexivity|].
    rewrite Forall_forall in H. intros x Hx. apply (Hf l x eq_refl Hx). auto.
Qed.

Lemma given_text_null o :
  if_given o (fun v => check_type v opt_str = Ok tt /\ no_check v = Ok tt) <-> if_given o text_or_null.
Proof. apply given_iff. intros v. rewrite no_check_ok. apply type_text_null. Qed.
Lemma given_bool_null o :
  if_given o (fun v => check_type v opt_bool = Ok tt /\ no_check v = Ok tt) <-> if_given o bool_or_null.
Proof. apply given_iff. intros v. rewrite no_check_ok. apply type_bool_null. Qed.
Lemma given_xbool o :
  if_given o (fun v => check_type v xbool_ty = Ok tt /\ check_extended_bool v = Ok tt) <-> if_given o inheritable_bool.
Proof. apply given_iff. apply xbool_iff. Qed.

Lemma check_when_iff e v : v <> VNone -> check_type v opt_str = Ok tt /\ check_when e v = Ok tt <-> a_condition e v.
Proof.
  intros Hv. unfold opt_str. rewrite type_text_null. unfold a_condition, nullable, a_text. split.
  - intros [[->|[x ->]] H]; [contradiction|]. cbn [check_when] in H.
    destruct (parse_when (valid_ere e) x) as [[]|t] eqn:E; try discriminate. eauto.
  - intros (x & t & -> & E). split; [eauto|]. cbn [check_when]. now rewrite E.
Qed.
Lemma check_capture_iff v : v <> VNone ->
  check_type v opt_str = Ok tt /\ check_variable_name v = Ok tt <-> a_variable v.
Proof.
  intros Hv. unfold opt_str. rewrite type_text_null, <- variable_iff. unfold nullable. split; [|tauto].
  intros [[->|H] K]; [contradiction|auto].
Qed.
Lemma completer_list e c v : accepted e c [] v -> check_type v opt_list = Ok tt.
Proof. intros [t H]. apply check_shape in H as (x & args & ->). reflexivity. Qed.
Lemma check_completer_iff e c v : v <> VNone -> plain_context c -> proper v -> undisturbed v ->
  check_type v opt_list = Ok tt /\ (do _ <- check_complete e c [] v; Ok tt) = Ok tt <-> completer_written e c v.
Proof.
  intros Hn Hc Hp Hu. rewrite <- (completer_iff e c v Hc Hp Hu). split.
  - intros [_ H]. apply bind_ok' in H as (t & H & _). exists t. exact H.
  - intros H. split; [apply (completer_list e c v H)|]. destruct H as [t H]. rewrite H. reflexivity.
Qed.
Lemma given_sep d :
  if_given (vget (s "long_opt_arg_sep") d) (fun v => check_type v [TStr] = Ok tt /\ no_check v = Ok tt) /\
  check_if (has_set d "long_opt_arg_sep") check_sep (vget (s "long_opt_arg_sep") d) = Ok tt <->
  if_given (vget (s "long_opt_arg_sep") d) (one_of ["space"; "equals"; "both"; "INHERIT"]).
Proof.
  unfold has_set. destruct (vget (s "long_opt_arg_sep") d) as [v|].
  2: { split; [intros _; apply given_none|intros _; split; [apply given_none|reflexivity]]. }
  rewrite !given_some, no_check_ok, type_text. unfold a_text, one_of. split.
  - intros [[x ->] H]. cbn [check_if check_sep on_str] in H.
    change [s "space"; s "equals"; s "both"; s "INHERIT"] with (map s ["space"; "equals"; "both"; "INHERIT"]) in H.
    destruct (mems x _) eqn:E; [|discriminate]. apply mems_In, in_map_iff in E as (n & <- & Hn). eauto.
  - intros (n & Hn & ->). split; [eauto|]. cbn [check_if check_sep on_str].
    change [s "space"; s "equals"; s "both"; s "INHERIT"] with (map s ["space"; "equals"; "both"; "INHERIT"]).
    rewrite (proj2 (mems_In (s n) _) (in_map s _ _ Hn)). reflexivity.
Qed.
Lemma given_strings d :
  (if_given (vget (s "option_strings") d) (fun v => check_type v [TList] = Ok tt /\ no_check v = Ok tt) /\ has d "option_strings") /\
  check_if true check_non_empty_list (vget (s "option_strings") d) = Ok tt /\
  on_list check_option_string (vget (s "option_strings") d) = Ok tt <->
  if_given (vget (s "option_strings") d) (filled_list_of an_option_string) /\ has d "option_strings".
Proof.
  unfold has. destruct (vget (s "option_strings") d) as [v|].
  2: { split; [intros [[_ [v H]] _]; discriminate|intros [_ [v H]]; discriminate]. }
  rewrite !given_some, no_check_ok, type_list. unfold filled_list_of, a_list. split.
  - intros [[[l ->] _] [Hn H]]. split; [|eauto]. apply on_list_iff in H as (l' & E & H). injection E as <-.
    exists l. split; [reflexivity|]. split; [intros ->; discriminate|]. apply Forall_forall. intros x Hx.
    apply option_string_iff. auto.
  - intros [(l & -> & Hn & H) _]. rewrite Forall_forall in H. split; [split; eauto|]. split.
    + destruct l; [now destruct Hn|reflexivity].
    + apply on_list_iff. exists l. split; [reflexivity|]. intros x Hx. apply option_string_iff. auto.
Qed.

Lemma sets_iff d k : has_set d k = true <-> sets d k.
Proof.
  unfold has_set, sets. destruct (vget (s k) d) as [v|].
  - split.
    + intros H. exists v. split; [reflexivity|]. intros ->. discriminate.
    + intros (w & E & H). injection E as <-. destruct v; congruence.
  - split; [discriminate|]. intros (v & E & _). discriminate.
Qed.
Lemma true_iff d k : is_true d k = true <-> says_true d k.
Proof.
  unfold is_true, says_true. destruct (vget (s k) d) as [[|[]| | | | |]|]; split; congruence.
Qed.
Lemma implied (P Q : Prop) a b : (a = true <-> P) -> (b = true <-> Q) -> a && negb b = false <-> (P -> Q).
Proof. intros Ha Hb. destruct a, b; cbn; intuition congruence. Qed.
Lemma excluded (P Q : Prop) a b : (a = true <-> P) -> (b = true <-> Q) -> a && b = false <-> ~ (P /\ Q).
Proof. intros Ha Hb. destruct a, b; cbn; intuition congruence. Qed.
Lemma if_err (b : bool) x (r : res unit) : (if b then Err x else r) = Ok tt <-> b = false /\ r = Ok tt.
Proof. destruct b; split; intros H; [discriminate|destruct H; discriminate|auto|apply H]. Qed.

Ltac splits := repeat match goal with |- _ /\ _ => split end.
Lemma option_written_iff e ps o : proper (VDict o) ->
  (forall x, vget (s "complete") o = Some x -> undisturbed x) ->
  check_option e ps (VDict o) = Ok tt <-> option_written e ps (VDict o).
Proof.
  intros Hp Hu. rewrite check_option_ok. unfold option_written.
  assert (X : forall Q : dict -> Prop, (exists o', VDict o = VDict o' /\ Q o') <-> Q o).
  { intros Q. split; [intros (o' & E & H); injection E as <-; exact H|eauto]. }
  rewrite X. clear X.
  assert (Hd : NoDup (map fst o)) by (apply Hp; constructor).
  cbn [check_option0]. rewrite !bind_tt_iff, !if_err, !bind_tt_iff.
  rewrite (implied _ _ _ _ (sets_iff o "metavar") (sets_iff o "complete")).
  rewrite (implied _ _ _ _ (true_iff o "optional_arg") (sets_iff o "complete")).
  rewrite (excluded _ _ _ _ (true_iff o "repeatable") (true_iff o "hidden")).
  rewrite (excluded _ _ _ _ (sets_iff o "group") (sets_iff o "groups")).
  rewrite (dictionary_iff _ _ Hd) by names. rewrite (parameters_iff _ _ Hd) by names.
  unfold option_rules. cbn [map r_key fst]. rewrite !Forall_cons_iff, !Forall_nil_iff.
  cbn [r_key r_types r_check r_required fst snd].
  rewrite <- given_sep.
  rewrite <- (given_listed (fun g => check_type g [TStr]) a_text o "groups") by (intros; apply type_text).
  rewrite <- (given_checked opt_str check_variable_name a_variable o "capture") by (reflexivity || (intros; now apply check_capture_iff)).
  rewrite <- (given_checked opt_str (check_when e) (a_condition e) o "when") by (reflexivity || (intros; now apply check_when_iff)).
  rewrite <- (given_checked opt_list (fun x => do _ <- check_complete e (MkCtx None ps) [] x; Ok tt)
    (completer_written e (MkCtx None ps)) o "complete").
  2: reflexivity.
  2: { intros v Hv Ev. apply check_completer_iff; [exact Hv|intros p E; discriminate| |now apply Hu].
       apply (proper_part _ _ Hp). now apply part_vget in Ev. }
  rewrite !given_text_null, !given_bool_null, !given_xbool.
  pose proof (given_strings o) as G.
  split.
  - intros ((K & F & R) & N & S & H). decompose [and] F. decompose [and] R. decompose [and] H. clear F R H.
    assert (true = true -> has o "option_strings") as R by assumption. specialize (R eq_refl).
    pose proof (proj1 G) as G1. splits; try assumption; try exact I; apply G1; tauto.
  - intros (Hs & (K & F) & H). decompose [and] F. decompose [and] H. clear F H.
    pose proof (proj2 G) as G2.
    split; [split; [exact K|split]|].
    + splits; try assumption; try exact I; apply G2; tauto.
    + splits; try assumption; try exact I; intros; assumption || discriminate.
    + splits; try assumption; try exact I; apply G2; tauto.
Qed.

(** ** Positionals *)
Lemma number_positive d :
  (if_given (vget (s "number") d) (fun v => check_type v [TInt] = Ok tt /\ no_check v = Ok tt) /\ has d "number") /\
  (do n <- get_number d; if (n <? 1)%Z then Err (sch "number: Integer must be greater than zero") else Ok tt) = Ok tt <->
  if_given (vget (s "number") d) (fun v => exists z, denotes v z /\ (1 <= z)%Z) /\ has d "number".
Proof.
  split.
  - intros [[Ht [v Ev]] H]. apply bind_ok' in H as (n & Hn & H). apply get_number_iff in Hn as (w & Ew & Dw).
    rewrite Ew, given_some. split; [|unfold has; eauto]. exists n. split; [exact Dw|].
    destruct (Z.ltb_spec n 1); [discriminate|assumption].
  - intros [H [v Ev]]. rewrite Ev, given_some in H. destruct H as (z & Dz & Hz).
    rewrite Ev, given_some, no_check_ok. split; [split; [|unfold has; rewrite Ev; eauto]|].
    + destruct Dz as [->|(b & -> & _)]; reflexivity.
    + rewrite bind_ok. exists z. split; [apply get_number_iff; eauto|].
      destruct (Z.ltb_spec z 1); [exfalso; lia|reflexivity].
Qed.
Lemma bind_if (r : res Z) (b : Z -> bool) x (k : res unit) :
  (do n <- r; if b n then Err x else k) = Ok tt <-> (do n <- r; if b n then Err x else Ok tt) = Ok tt /\ k = Ok tt.
Proof.
  destruct r as [e|n]; cbn [bind]; [split; [discriminate|intros [H _]; discriminate]|].
  destruct (b n); [split; [discriminate|intros [H _]; discriminate]|]. intuition.
Qed.

(** What the dictionary of a positional says. *)
Definition pos_dict e ps p : Prop :=
  keys_in (map (fun r => s (r_key r)) positional_rules) p /\
  (if_given (vget (s "number") p) (fun v => exists z, denotes v z /\ (1 <= z)%Z) /\ has p "number") /\
  if_given (vget (s "metavar") p) text_or_null /\ if_given (vget (s "help") p) text_or_null /\
  if_given (vget (s "repeatable") p) bool_or_null /\ if_given (vget (s "nosort") p) bool_or_null /\
  (if_given (vget (s "complete") p) (fun v => check_type v opt_list = Ok tt /\ no_check v = Ok tt) /\
   check_if (has_set p "complete") (fun x => do _ <- check_complete e (MkCtx (Some p) ps) [] x; Ok tt)
                  (vget (s "complete") p) = Ok tt) /\
  if_given (vget (s "when") p) (nullable (a_condition e)) /\
  if_given (vget (s "capture") p) (nullable a_variable).
Lemma pos_dict_iff e ps p : NoDup (map fst p) ->
  check_positional e ps (VDict p) = Ok tt <-> pos_dict e ps p.
Proof.
  intros Hd. unfold pos_dict. cbn [check_positional]. rewrite bind_tt_iff, bind_if, !bind_tt_iff.
  rewrite (dictionary_iff _ _ Hd) by names.
  rewrite <- number_positive.
  rewrite <- (given_checked opt_str check_variable_name a_variable p "capture") by (reflexivity || (intros; now apply check_capture_iff)).
  rewrite <- (given_checked opt_str (check_when e) (a_condition e) p "when") by (reflexivity || (intros; now apply check_when_iff)).
  unfold positional_rules at 2 3. rewrite !Forall_cons_iff, !Forall_nil_iff.
  cbn [r_key r_types r_check r_required fst snd].
  rewrite !given_text_null, !given_bool_null.
  split.
  - intros ((K & F & R) & N & H). decompose [and] F. decompose [and] R. decompose [and] H. clear F R H.
    assert (true = true -> has p "number") as R by assumption. specialize (R eq_refl).
    splits; assumption.
  - intros (K & H). decompose [and] H. clear H.
    splits; try assumption; try exact I; intros; assumption || discriminate.
Qed.
Lemma pos_dict_plain e ps p : pos_dict e ps p -> plain_positional p.
Proof.
  intros (_ & (Hn & [v Ev]) & _ & _ & Hr & _ & (Ht & Hc) & _). split; [|split].
  - rewrite Ev, given_some in Hn. destruct Hn as (z & Dz & _). eauto.
  - exact Hr.
  - apply given_null_ok. unfold has_set in Hc. destruct (vget (s "complete") p) as [x|]; [right|left; reflexivity].
    destruct (value_eqb_spec x VNone) as [->|Hx]; [left; reflexivity|right]. exists x. split; [reflexivity|].
    assert (exists t, check_complete e (MkCtx (Some p) ps) [] x = Ok t) as [t E].
    { destruct x; try congruence; cbn [check_if] in Hc; apply bind_ok' in Hc as (t & Hc & _); eauto. }
    apply check_shape in E as (y & args & ->). eauto.
Qed.
Lemma written_shape e c enc x : written e c enc x -> exists y l, x = VList (y :: l).
Proof. intros (names & P & n & args & _ & _ & -> & _). eauto. Qed.
Lemma positional_written_plain e ps p : NoDup (map fst p) -> positional_written e ps (VDict p) -> plain_positional p.
Proof.
  intros Hd (p' & E & H). injection E as <-. destruct H as [[v Ev] H]. rewrite (parameters_iff _ _ Hd) in H by names.
  destruct H as [_ H]. rewrite !Forall_cons_iff in H. cbn [fst snd] in H.
  destruct H as (Hn & _ & _ & Hr & _ & Hc & _). split; [|split].
  - rewrite Ev, given_some in Hn. destruct Hn as (z & Dz & _). eauto.
  - exact Hr.
  - revert Hc. rewrite !given_null_ok. intros [H|[H|(x & H & K)]]; auto. right. right. exists x. split; [exact H|].
    apply (written_shape e (MkCtx (Some p) ps) []). apply K. constructor.
Qed.
Lemma positional_written_iff e l p : proper (VDict p) ->
  (forall x, vget (s "complete") p = Some x -> undisturbed x) ->
  plain_positional p -> (forall v, In v l -> exists q, v = VDict q /\ plain_positional q) ->
  check_positional e (VList l) (VDict p) = Ok tt <-> positional_written e (VList l) (VDict p).
Proof.
  intros Hp Hu Hpl Hl. assert (Hd : NoDup (map fst p)) by (apply Hp; constructor).
  rewrite (pos_dict_iff e (VList l) p Hd). unfold positional_written, pos_dict.
  assert (X : forall Q : dict -> Prop, (exists o', VDict p = VDict o' /\ Q o') <-> Q p).
  { intros Q. split; [intros (o' & E & H); injection E as <-; exact H|eauto]. }
  rewrite X. clear X. rewrite (parameters_iff _ _ Hd) by names. rewrite !Forall_cons_iff, !Forall_nil_iff.
  cbn [fst snd].
  rewrite (given_checked opt_list (fun x => do _ <- check_complete e (MkCtx (Some p) (VList l)) [] x; Ok tt)
    (completer_written e (MkCtx (Some p) (VList l))) p "complete").
  2: reflexivity.
  2: { intros v Hv Ev. apply check_completer_iff; [exact Hv| | |now apply Hu].
       - intros q E. injection E as <-. split; [exact Hpl|]. exists l. auto.
       - apply (proper_part _ _ Hp). now apply part_vget in Ev. }
  unfold positional_rules. cbn [map r_key fst].
  split.
  - intros H. decompose [and] H. splits; assumption || exact I.
  - intros H. decompose [and] H. splits; assumption || exact I.
Qed.

(** ** Definitions *)
Lemma prog_iff v : a_text v /\ match v with VStr p => validate_prog p | _ => Err TypeError end = Ok tt <-> a_program v.
Proof.
  unfold a_program, a_text. split.
  - intros [[x ->] H]. exists x. split; [reflexivity|]. now apply validate_prog_iff.
  - intros (x & -> & H). split; [eauto|]. now apply validate_prog_iff.
Qed.
Lemma given_prog d :
  (if_given (vget (s "prog") d) (fun v => check_type v [TStr] = Ok tt /\ no_check v = Ok tt) /\ has d "prog") /\
  check_if true (fun v => match v with VStr p => validate_prog p | _ => Err TypeError end) (vget (s "prog") d) = Ok tt <->
  if_given (vget (s "prog") d) a_program /\ has d "prog".
Proof.
  unfold has. destruct (vget (s "prog") d) as [v|].
  2: { split; [intros [[_ [v H]] _]; discriminate|intros [_ [v H]]; discriminate]. }
  rewrite !given_some, no_check_ok, type_text, <- prog_iff. cbn [check_if]. intuition eauto.
Qed.
Lemma given_wraps d : if_given (vget (s "prog") d) a_program /\ has d "prog" ->
  if_given (vget (s "wraps") d) (fun v => check_type v opt_str = Ok tt /\ no_check v = Ok tt) /\
  check_if (has_set d "wraps") (check_wraps d) (vget (s "wraps") d) = Ok tt <->
  if_given (vget (s "wraps") d) (nullable a_word) /\
  (sets d "wraps" -> forall x, vget (s "prog") d = Some (VStr x) -> solid x).
Proof.
  intros [Hg [v Ev]]. rewrite Ev, given_some in Hg. destruct Hg as (p & -> & _).
  rewrite (given_checked opt_str (check_wraps d) (fun v => a_word v /\ solid p) d "wraps").
  - rewrite !given_null_ok, Ev. unfold sets.
    assert (K : (forall x, Some (VStr p) = Some (VStr x) -> solid x) <-> solid p).
    { split; [intros H; now apply H|intros H x E; injection E as <-; exact H]. }
    rewrite K. destruct (vget (s "wraps") d) as [w|].
    + split.
      * intros [H|[H|(u & H & Hw & Hs)]]; [discriminate| |].
        -- split; [auto|]. intros (u & E & Hu). congruence.
        -- split; [eauto|auto].
      * intros [[H|[H|(u & H & Hw)]] Hs]; [discriminate|auto|]. right. right. exists u. split; [exact H|].
        split; [exact Hw|]. apply Hs. exists u. split; [exact H|]. destruct Hw as (x & -> & _). discriminate.
    + split; [|auto]. intros _. split; [auto|]. intros (u & E & _). discriminate.
  - reflexivity.
  - intros w Hw Ew. rewrite <- word_iff. unfold check_wraps, check_extension. rewrite Ev, !bind_tt_iff.
    unfold opt_str. rewrite type_text_null, type_text, <- (solid_iff p). unfold nullable.
    destruct (contains_space p).
    + split; [intros (_ & _ & _ & H)|intros [_ H]]; discriminate.
    + split; [intros ([H|H] & H1 & H2 & _); [congruence|auto]|intros ((H & H1 & H2) & _); auto].
Qed.

Lemma getd_list d l : vget (s "positionals") d = Some (VList l) -> getd (s "positionals") VNone d = VList l.
Proof. unfold getd. now intros ->. Qed.

Theorem definition_written_iff e d : proper (VDict d) ->
  (forall x, completer_of (VDict d) x -> undisturbed x) ->
  check_definition e d = Ok tt <-> definition_written e d.
Proof.
  intros Hp Hu. assert (Hd : NoDup (map fst d)) by (apply Hp; constructor).
  assert (Hin : forall k l w, vget (s k) d = Some (VList l) -> In w l -> part (VDict d) w).
  { intros k l w E Hw. apply (part_trans _ (VList l)); [now apply part_vget in E|now apply part_In]. }
  assert (Ho : forall l w, vget (s "options") d = Some (VList l) -> In w l ->
    check_option e (getd (s "positionals") VNone d) w = Ok tt <->
    option_written e (getd (s "positionals") VNone d) w).
  { intros l w E Hw. destruct w as [| | | | | |o]; try (split; [discriminate|intros (o & H & _); discriminate]).
    apply option_written_iff.
    - apply (proper_part _ _ Hp), (Hin _ _ _ E Hw).
    - intros x Ex. apply Hu. exists d, "options"%string, l, (VDict o), o. auto 8. }
  assert (Hps : forall l, vget (s "positionals") d = Some (VList l) ->
    (forall w, In w l -> check_positional e (VList l) w = Ok tt) <->
    (forall w, In w l -> positional_written e (VList l) w)).
  { intros l E.
    assert (Hpd : forall q, In (VDict q) l -> NoDup (map fst q)) by (intros q Hq; apply Hp, (Hin _ _ _ E Hq)).
    assert (H0 : (forall v, In v l -> exists q, v = VDict q /\ plain_positional q) ->
      (forall w, In w l -> check_positional e (VList l) w = Ok tt) <->
      (forall w, In w l -> positional_written e (VList l) w)).
    { intros Hl. assert (K : forall w, In w l -> check_positional e (VList l) w = Ok tt <-> positional_written e (VList l) w).
      { intros w Hw. destruct (Hl w Hw) as (q & -> & Hq). apply positional_written_iff; [|intros x Ex|exact Hq|exact Hl].
        - apply (proper_part _ _ Hp), (Hin _ _ _ E Hw).
        - apply Hu. exists d, "positionals"%string, l, (VDict q), q. auto 8. }
      split; intros H w Hw; apply (K w Hw), H, Hw. }
    split; intros H; refine (_ H); apply H0; intros v Hv.
    - specialize (H v Hv). destruct v as [| | | | | |q]; try discriminate. exists q. split; [reflexivity|].
      apply (pos_dict_plain e (VList l)), pos_dict_iff; auto.
    - specialize (H v Hv). destruct H as (q & -> & H). exists q. split; [reflexivity|].
      apply (positional_written_plain e (VList l)); [auto|]. exists q. auto. }
  assert (Hpos : if_given (vget (s "positionals") d) (fun v => check_type v opt_list = Ok tt /\ no_check v = Ok tt) /\
    (if has_set d "positionals"
     then on_list (check_positional e (getd (s "positionals") VNone d)) (vget (s "positionals") d) else Ok tt) = Ok tt <->
    if_given (vget (s "positionals") d) (nullable (list_of (positional_written e (getd (s "positionals") VNone d))))).
  { pose proof (given_listed (check_positional e (getd (s "positionals") VNone d))
      (fun v => check_positional e (getd (s "positionals") VNone d) v = Ok tt) d "positionals"
      (fun _ _ _ _ => iff_refl _)) as G. rewrite G. clear G. rewrite !given_null_ok. unfold list_of, a_list.
    split; (intros [H|[H|(v & Ev & l & -> & H)]]; [auto|auto|]); right; right; exists (VList l); (split; [exact Ev|]);
      exists l; (split; [reflexivity|]); rewrite (getd_list _ _ Ev) in *; rewrite Forall_forall in *;
      apply (Hps l Ev); exact H. }
  unfold check_definition, definition_written. rewrite !bind_tt_iff.
  rewrite (dictionary_iff _ _ Hd) by names. rewrite (parameters_iff _ _ Hd) by names.
  unfold definition_rules. cbn [map r_key fst]. rewrite !Forall_cons_iff, !Forall_nil_iff.
  cbn [r_key r_types r_check r_required fst snd].
  rewrite <- Hpos.
  rewrite <- (given_listed _ _ d "options" Ho).
  rewrite <- (given_listed check_extension a_word d "aliases") by (intros; apply word_iff).
  rewrite !given_xbool.
  pose proof (given_prog d) as GP. pose proof (given_wraps d) as GW.
  set (PR := check_if true _ (vget (s "prog") d)) in *.
  split.
  - intros ((K & F & R) & P & A & W & O & S). decompose [and] F. decompose [and] R. clear F R.
    assert (true = true -> has d "prog") as R by assumption. specialize (R eq_refl).
    pose proof (proj1 GP) as GP1. assert (GP2 : if_given (vget (s "prog") d) a_program /\ has d "prog") by (apply GP1; auto).
    specialize (GW GP2). pose proof (proj1 GW) as GW1.
    assert (GW2 : if_given (vget (s "wraps") d) (nullable a_word) /\
      (sets d "wraps" -> forall x, vget (s "prog") d = Some (VStr x) -> solid x)) by (apply GW1; auto).
    destruct GP2, GW2. rewrite given_text_null in *. splits; assumption || exact I.
  - intros (R & (K & F) & W). decompose [and] F. clear F.
    pose proof (proj2 GP) as GP1.
    assert (GP3 : if_given (vget (s "prog") d) a_program /\ has d "prog") by auto.
    specialize (GW GP3). pose proof (proj2 GW) as GW1.
    assert (GW2 : if_given (vget (s "wraps") d) (fun v => check_type v opt_str = Ok tt /\ no_check v = Ok tt) /\
      check_if (has_set d "wraps") (check_wraps d) (vget (s "wraps") d) = Ok tt) by (apply GW1; auto).
    destruct GW2. destruct (GP1 GP3) as [[GP4 _] GP5].
    splits; try assumption; try exact I; try (intros; assumption || discriminate).
    now apply given_text_null.
Qed.
