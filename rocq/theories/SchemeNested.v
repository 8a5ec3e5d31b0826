(** * Proofs about nested completers (C33). *)
From Verif Require Import Base Dict Value StrUtils Cli DictSource SchemeValidator SpecScheme.

Lemma bind_ok {A B} (r : res A) (k : A -> res B) b :
  bind r k = Ok b <-> exists a, r = Ok a /\ k a = Ok b.
Proof.
  destruct r as [x|a]; cbn; split.
  - discriminate.
  - intros (a & H & _); discriminate.
  - intros H; exists a; auto.
  - intros (a' & H & H'); injection H as ->; exact H'.
Qed.
Lemma bind_ok' {A B} (r : res A) (k : A -> res B) b :
  bind r k = Ok b -> exists a, r = Ok a /\ k a = Ok b.
Proof. apply bind_ok. Qed.

(** ** The table of completers *)
Definition kind_name (k : completer) : option str :=
  match k with
  | KCombine => Some (s "combine")
  | KKeyValueList => Some (s "key_value_list")
  | KKeyValuePair => Some (s "key_value_pair")
  | KList => Some (s "list")
  | KPrefix => Some (s "prefix")
  | KNone => Some (s "none")
  | KCommandArg => Some (s "command_arg")
  | _ => None
  end.
Lemma kind_name_ok cmd k n : dget str_eqb cmd commands = Some k -> kind_name k = Some n -> cmd = n.
Proof.
  intros H Hn. apply (dget_In str_eqb str_eqb_spec) in H.
  assert (F : forallb (fun p => match kind_name (snd p) with
                                | Some n => str_eqb (fst p) n | None => true end) commands = true)
    by (vm_compute; reflexivity).
  rewrite forallb_forall in F. specialize (F _ H). cbn [fst snd] in F. rewrite Hn in F.
  apply str_eqb_eq in F. exact F.
Qed.
Lemma get_combine : dget str_eqb (s "combine") commands = Some KCombine.
Proof. vm_compute; reflexivity. Qed.
Lemma get_kvl : dget str_eqb (s "key_value_list") commands = Some KKeyValueList.
Proof. vm_compute; reflexivity. Qed.
Lemma get_kvp : dget str_eqb (s "key_value_pair") commands = Some KKeyValuePair.
Proof. vm_compute; reflexivity. Qed.
Lemma get_list : dget str_eqb (s "list") commands = Some KList.
Proof. vm_compute; reflexivity. Qed.
Lemma get_prefix : dget str_eqb (s "prefix") commands = Some KPrefix.
Proof. vm_compute; reflexivity. Qed.

Definition nesting_name (x : str) : Prop :=
  In x [s "combine"; s "key_value_list"; s "key_value_pair"; s "list"; s "prefix"].
Definition sensitive_name (x : str) : Prop := In x [s "none"; s "command_arg"].

Inductive classified (x : str) : Prop :=
| cl_combine : x = s "combine" -> classified x
| cl_kvl : x = s "key_value_list" -> classified x
| cl_kvp : x = s "key_value_pair" -> classified x
| cl_list : x = s "list" -> classified x
| cl_prefix : x = s "prefix" -> classified x
| cl_other : ~ nesting_name x -> classified x.
Lemma classify x : classified x.
Proof.
  destruct (str_eqb_spec x (s "combine")); [apply cl_combine; assumption|].
  destruct (str_eqb_spec x (s "key_value_list")); [apply cl_kvl; assumption|].
  destruct (str_eqb_spec x (s "key_value_pair")); [apply cl_kvp; assumption|].
  destruct (str_eqb_spec x (s "list")); [apply cl_list; assumption|].
  destruct (str_eqb_spec x (s "prefix")); [apply cl_prefix; assumption|].
  apply cl_other. unfold nesting_name. cbn [In]. intuition congruence.
Qed.

Definition simple_kind (k : completer) : Prop :=
  match k with KCombine | KKeyValueList | KKeyValuePair | KList | KPrefix => False | _ => True end.
Lemma other_simple x k : ~ nesting_name x -> dget str_eqb x commands = Some k -> simple_kind k.
Proof.
  intros H G. destruct k; cbn; trivial; apply H; unfold nesting_name; cbn [In];
    erewrite (kind_name_ok _ _ _ G) by reflexivity; tauto.
Qed.

(** ** Sizes *)
Fixpoint vsize (v : value) : nat :=
  match v with
  | VList l => S (list_sum (map vsize l))
  | _ => 1
  end.
Lemma vsize_pos v : 1 <= vsize v.
Proof. destruct v; cbn; lia. Qed.
Lemma In_vsize x l : In x l -> vsize x <= list_sum (map vsize l).
Proof.
  induction l as [|y l IH]; cbn [In map list_sum fold_right]; [tauto|].
  intros [->|H]; [unfold list_sum; cbn; lia|]. specialize (IH H). unfold list_sum in *. cbn. lia.
Qed.
Lemma entry_size x y : In y (entry_completer x) -> vsize y < vsize x.
Proof.
  destruct x as [| | | | |l|]; cbn [entry_completer]; try solve [intros []].
  destruct l as [|a [|b [|z r]]]; try solve [intros []].
  assert (vsize z < vsize (VList (a :: b :: z :: r))) by (cbn; lia).
  destruct z; cbn [In]; intuition (subst; assumption).
Qed.
Lemma entries_size l y : In y (flat_map entry_completer l) -> vsize y < vsize (VList l).
Proof.
  rewrite in_flat_map. intros (x & Hx & Hy). apply entry_size in Hy. apply In_vsize in Hx.
  cbn. lia.
Qed.
Lemma children_size v y : In y (children v) -> vsize y < vsize v.
Proof.
  destruct v as [| | | | |l|]; cbn [children]; try solve [intros []].
  destruct l as [|a args]; [intros []|]. destruct a; try solve [intros []].
  repeat match goal with |- In y (if ?b then _ else _) -> _ => destruct b end; try solve [intros []].
  - destruct args as [|[] [|]]; try solve [intros []]. intros H. apply In_vsize in H. cbn. lia.
  - destruct args as [|a [|b [|[] r]]]; try solve [intros []]. intros H. apply entries_size in H.
    cbn in *. lia.
  - destruct args as [|a [|[] r]]; try solve [intros []]. intros H. apply entries_size in H.
    cbn in *. lia.
  - destruct args as [|a r]; try solve [intros []]. intros [->|[]]. cbn. lia.
  - destruct args as [|a [|b [|]]]; try solve [intros []]. intros [->|[]]. cbn. lia.
Qed.

(** ** Children and blanks, by kind *)
Lemma children_combine l : children (VList [VStr (s "combine"); VList l]) = l.
Proof. reflexivity. Qed.
Lemma children_kvl a b l r :
  children (VList (VStr (s "key_value_list") :: a :: b :: VList l :: r)) = flat_map entry_completer l.
Proof. reflexivity. Qed.
Lemma children_kvp a l r :
  children (VList (VStr (s "key_value_pair") :: a :: VList l :: r)) = flat_map entry_completer l.
Proof. reflexivity. Qed.
Lemma children_list a r : children (VList (VStr (s "list") :: a :: r)) = [a].
Proof. reflexivity. Qed.
Lemma children_prefix a b : children (VList [VStr (s "prefix"); a; b]) = [b].
Proof. reflexivity. Qed.

Lemma not_nesting_eqb x : ~ nesting_name x ->
  str_eqb x (s "combine") = false /\ str_eqb x (s "key_value_list") = false /\
  str_eqb x (s "key_value_pair") = false /\ str_eqb x (s "list") = false /\
  str_eqb x (s "prefix") = false.
Proof.
  intros H. repeat split;
    match goal with |- str_eqb x ?y = false => destruct (str_eqb_spec x y) as [->|]; [|reflexivity] end;
    exfalso; apply H; unfold nesting_name; cbn [In]; tauto.
Qed.
Lemma children_other x args : ~ nesting_name x -> children (VList (VStr x :: args)) = [].
Proof.
  intros H. apply not_nesting_eqb in H as (H1 & H2 & H3 & H4 & H5).
  unfold children. rewrite H1, H2, H3, H4, H5. reflexivity.
Qed.
Lemma blank_other x args : ~ nesting_name x -> blank (VList (VStr x :: args)) = VList (VStr x :: args).
Proof.
  intros H. apply not_nesting_eqb in H as (H1 & H2 & H3 & H4 & H5).
  unfold blank. rewrite H1, H2, H3, H4, H5. reflexivity.
Qed.

(** ** Equations *)
Section Check.
Variables (e : env) (c : ctx).
Notation check := (check_complete e c).

Lemma check_eq tr cmd args :
  check tr (VList (VStr cmd :: args)) =
  match dget str_eqb cmd commands with
  | None => Err (sch "Unknown completer")
  | Some k => check_level check e c tr k args
  end.
Proof. reflexivity. Qed.
Lemma check_combine_eq tr args :
  check tr (VList (VStr (s "combine") :: args)) = check_combine check tr args.
Proof. rewrite check_eq, get_combine. reflexivity. Qed.
Lemma check_kvl_eq tr args :
  check tr (VList (VStr (s "key_value_list") :: args)) = check_key_value_list check tr args.
Proof. rewrite check_eq, get_kvl. reflexivity. Qed.
Lemma check_kvp_eq tr args :
  check tr (VList (VStr (s "key_value_pair") :: args)) = check_key_value_pair check tr args.
Proof. rewrite check_eq, get_kvp. reflexivity. Qed.
Lemma check_list_eq tr args :
  check tr (VList (VStr (s "list") :: args)) = check_list check tr args.
Proof. rewrite check_eq, get_list. reflexivity. Qed.
Lemma check_prefix_eq tr args :
  check tr (VList (VStr (s "prefix") :: args)) = check_prefix check tr args.
Proof. rewrite check_eq, get_prefix. reflexivity. Qed.
Lemma check_other_eq tr x args t : ~ nesting_name x ->
  check tr (VList (VStr x :: args)) = Ok t <->
  t = tr /\ exists k, dget str_eqb x commands = Some k /\ simple_kind k /\
    check_simple e c tr k args = Ok tt.
Proof.
  intros H. rewrite check_eq. destruct (dget str_eqb x commands) as [k|] eqn:G.
  2: { split; [discriminate|]. intros (_ & k & Hk & _); discriminate. }
  pose proof (other_simple _ _ H G) as Hs.
  assert (E : check_level check e c tr k args = do _ <- check_simple e c tr k args; Ok tr)
    by (destruct k; cbn in Hs; try contradiction; reflexivity).
  rewrite E, bind_ok. split.
  - intros ([] & H1 & H2). injection H2 as ->. split; [reflexivity|]. exists k; auto.
  - intros (-> & k' & Hk & _ & H1). injection Hk as <-. exists tt; auto.
Qed.

Lemma check_harmless tr : check tr harmless = Ok tr.
Proof. unfold harmless. rewrite check_eq. vm_compute. reflexivity. Qed.

Lemma check_shape tr v t : check tr v = Ok t -> exists x args, v = VList (VStr x :: args).
Proof.
  destruct v as [| | | | |l|]; try discriminate. destruct l as [|[] l]; try discriminate.
  intros _. eauto.
Qed.

(** ** The trace *)
Lemma last_in_last tr l : ~ In [] l -> last_in tr l = mems (last tr []) l.
Proof.
  intros H. unfold last_in. destruct tr as [|a tr'] using rev_ind.
  - cbn [rev last]. symmetry. apply not_true_iff_false. rewrite mems_In. exact H.
  - rewrite rev_app_distr, last_last. reflexivity.
Qed.

Lemma check_simple_last tr1 tr2 k args :
  (last tr1 [] = last tr2 [] \/ (k <> KNone /\ k <> KCommandArg)) ->
  check_simple e c tr1 k args = check_simple e c tr2 k args.
Proof.
  intros H. destruct k; cbn [check_simple]; try reflexivity.
  - destruct H as [H|[H _]]; [|congruence]. unfold check_none.
    rewrite !last_in_last by (cbn; intuition discriminate). rewrite H. reflexivity.
  - destruct H as [H|[_ H]]; [|congruence]. unfold check_command_arg.
    rewrite !last_in_last by (cbn; intuition discriminate). rewrite H. reflexivity.
Qed.

(** What the check of [v] appends to the trace does not depend on the trace. *)
Definition uniform (v : value) : Prop :=
  forall tr t, check tr v = Ok t -> exists d, t = tr ++ d /\ (d = [] \/ nesting v) /\
    forall tr2, (last tr2 [] = last tr [] \/ ~ sensitive v) -> check tr2 v = Ok (tr2 ++ d).

Lemma last_app_d (tr tr2 d : list str) : last tr2 [] = last tr [] -> last (tr2 ++ d) [] = last (tr ++ d) [].
Proof.
  intros H. destruct d as [|x d] using rev_ind; [rewrite !app_nil_r; exact H|].
  rewrite !app_assoc, !last_last. reflexivity.
Qed.

Lemma completers_uniform l : (forall x, In x l -> uniform x) ->
  forall tr t, completers check tr l = Ok t -> exists d, t = tr ++ d /\
    forall tr2, last tr2 [] = last tr [] -> completers check tr2 l = Ok (tr2 ++ d).
Proof.
  induction l as [|x l IH]; intros HU tr t H.
  - cbn in H. injection H as <-. exists []. rewrite app_nil_r. split; [reflexivity|].
    intros tr2 _. cbn. rewrite app_nil_r. reflexivity.
  - cbn [completers] in H. apply bind_ok' in H as (t1 & H1 & H2).
    destruct (HU x (or_introl eq_refl) _ _ H1) as (d1 & -> & _ & F1).
    destruct (IH (fun y Hy => HU y (or_intror Hy)) _ _ H2) as (d2 & -> & F2).
    exists (d1 ++ d2). rewrite app_assoc. split; [reflexivity|]. intros tr2 Hl.
    cbn [completers]. rewrite F1 by (left; exact Hl). cbn [bind].
    rewrite F2 by (apply last_app_d; exact Hl). rewrite app_assoc. reflexivity.
Qed.

Lemma optional_uniform v : (forall x, v <> VNone -> x = v -> uniform x) ->
  forall tr t, optional_completer check tr v = Ok t -> exists d, t = tr ++ d /\
    forall tr2, last tr2 [] = last tr [] -> optional_completer check tr2 v = Ok (tr2 ++ d).
Proof.
  intros HU tr t H.
  assert (D : v = VNone \/ (v <> VNone /\ forall tr, optional_completer check tr v = check tr v))
    by (destruct v; (left; reflexivity) || (right; split; [discriminate|reflexivity])).
  destruct D as [->|[Hn E]].
  - cbn in *. injection H as <-. exists []. rewrite app_nil_r. split; [reflexivity|].
    intros tr2 _. rewrite app_nil_r. reflexivity.
  - rewrite E in H. destruct (HU v Hn eq_refl _ _ H) as (d & -> & _ & F).
    exists d. split; [reflexivity|]. intros tr2 Hl. rewrite E. apply F; left; exact Hl.
Qed.

Lemma entry_In a b x r l : x <> VNone ->
  In x (flat_map entry_completer (VList (a :: b :: x :: r) :: l)).
Proof. intros H. cbn [flat_map]. apply in_or_app. left. destruct x; cbn; tauto || congruence. Qed.

Lemma kvl_uniform l : (forall x, In x (flat_map entry_completer l) -> uniform x) ->
  forall tr keys t ks, kvl_entries check tr keys l = Ok (t, ks) -> exists d, t = tr ++ d /\
    forall tr2, last tr2 [] = last tr [] -> kvl_entries check tr2 keys l = Ok (tr2 ++ d, ks).
Proof.
  induction l as [|x l IH]; intros HU tr keys t ks H.
  - cbn in H. injection H as <- <-. exists []. rewrite app_nil_r. split; [reflexivity|].
    intros tr2 _. cbn. rewrite app_nil_r. reflexivity.
  - assert (HU' : forall y, In y (flat_map entry_completer l) -> uniform y).
    { intros y Hy. apply HU. cbn [flat_map]. apply in_or_app; right; exact Hy. }
    destruct x as [| | | | |x|]; try discriminate.
    destruct x as [|key [|desc [|co rest]]]; try discriminate.
    assert (HC : forall x, co <> VNone -> x = co -> uniform x).
    { intros x Hn ->. apply HU. apply entry_In. exact Hn. }
    assert (Hrest : rest = [] \/ exists ex, rest = [ex]).
    { destruct rest as [|ex [|]]; [left; reflexivity|right; eauto|discriminate]. }
    assert (E : forall tr, kvl_entries check tr keys (VList (key :: desc :: co :: rest) :: l) =
      do _ <- check_type co [TList; TNone];
      do k <- check_key key desc;
      if mems k keys then Err (sch "Duplicate key")
      else do trace' <- optional_completer check tr co;
           do _ <- match rest with [ex] => check_excludes ex | _ => Ok tt end;
           kvl_entries check trace' (keys ++ [k]) l).
    { intros tr'. destruct Hrest as [->|[ex ->]]; reflexivity. }
    rewrite E in H. apply bind_ok' in H as ([] & H1 & H).
    apply bind_ok' in H as (k & H2 & H). destruct (mems k keys) eqn:Ek; [discriminate|].
    apply bind_ok' in H as (t1 & H3 & H). apply bind_ok' in H as ([] & H4 & H).
    destruct (optional_uniform co HC _ _ H3) as (d1 & -> & F1).
    destruct (IH HU' _ _ _ _ H) as (d2 & -> & F2).
    exists (d1 ++ d2). rewrite app_assoc. split; [reflexivity|]. intros tr2 Hl.
    rewrite E, H1. cbn [bind]. rewrite H2. cbn [bind]. rewrite Ek, F1 by exact Hl. cbn [bind].
    rewrite H4. cbn [bind]. rewrite F2 by (apply last_app_d; exact Hl).
    rewrite app_assoc. reflexivity.
Qed.

Lemma kvp_uniform l : (forall x, In x (flat_map entry_completer l) -> uniform x) ->
  forall tr t, kvp_entries check tr l = Ok t -> exists d, t = tr ++ d /\
    forall tr2, last tr2 [] = last tr [] -> kvp_entries check tr2 l = Ok (tr2 ++ d).
Proof.
  induction l as [|x l IH]; intros HU tr t H.
  - cbn in H. injection H as <-. exists []. rewrite app_nil_r. split; [reflexivity|].
    intros tr2 _. cbn. rewrite app_nil_r. reflexivity.
  - assert (HU' : forall y, In y (flat_map entry_completer l) -> uniform y).
    { intros y Hy. apply HU. cbn [flat_map]. apply in_or_app; right; exact Hy. }
    destruct x as [| | | | |x|]; try discriminate.
    destruct x as [|key [|desc [|co [|]]]]; try discriminate.
    assert (HC : forall x, co <> VNone -> x = co -> uniform x).
    { intros x Hn ->. apply HU. apply entry_In. exact Hn. }
    cbn [kvp_entries] in *. apply bind_ok' in H as ([] & H1 & H).
    apply bind_ok' in H as (k & H2 & H). apply bind_ok' in H as (t1 & H3 & H).
    destruct (optional_uniform co HC _ _ H3) as (d1 & -> & F1).
    destruct (IH HU' _ _ H) as (d2 & -> & F2).
    exists (d1 ++ d2). rewrite app_assoc. split; [reflexivity|]. intros tr2 Hl.
    rewrite H1. cbn [bind]. rewrite H2. cbn [bind]. rewrite F1 by exact Hl. cbn [bind].
    rewrite F2 by (apply last_app_d; exact Hl). rewrite app_assoc. reflexivity.
Qed.

Lemma nest_intro x args : nesting_name x -> nesting (VList (VStr x :: args)).
Proof. exact (fun H => H). Qed.

(** A nested check that starts with the name [n] appended. *)
Lemma nested_uniform (g : list str -> res (list str)) v n :
  nesting v -> (forall tr, check tr v = g (tr ++ [n])) ->
  (forall tr t, g tr = Ok t -> exists d, t = tr ++ d /\
     forall tr2, last tr2 [] = last tr [] -> g tr2 = Ok (tr2 ++ d)) ->
  uniform v.
Proof.
  intros Hn E G tr t H. rewrite E in H. destruct (G _ _ H) as (d & -> & F).
  exists (n :: d). rewrite <- app_assoc. split; [reflexivity|]. split; [right; exact Hn|].
  intros tr2 _. rewrite E, F, <- app_assoc; [reflexivity|]. rewrite !last_last. reflexivity.
Qed.

Lemma sensitive_kind x k : dget str_eqb x commands = Some k -> ~ sensitive_name x ->
  k <> KNone /\ k <> KCommandArg.
Proof.
  intros G H. split; intros ->; apply H; unfold sensitive_name; cbn [In];
    erewrite (kind_name_ok _ _ _ G) by reflexivity; tauto.
Qed.

Lemma uniform_all v : uniform v.
Proof.
  remember (vsize v) as n eqn:Hn. revert v Hn.
  induction n as [n IHn] using (well_founded_induction lt_wf). intros v ->.
  assert (IH : forall y, In y (children v) -> uniform y).
  { intros y Hy. eapply IHn; [|reflexivity]. apply children_size; exact Hy. }
  clear IHn. intros tr t H. destruct (check_shape _ _ _ H) as (x & args & ->).
  revert tr t H. change (uniform (VList (VStr x :: args))).
  destruct (classify x) as [E|E|E|E|E|Hx]; [rewrite E in *; clear x E..|].
  - intros tr t H. pose proof H as H0. rewrite check_combine_eq in H. unfold check_combine in H.
    destruct args as [|[| | | | |l|] [|]]; try discriminate.
    destruct l as [|x1 [|x2 l]]; try discriminate. clear H. revert tr t H0.
    apply (nested_uniform (fun tr => completers check tr (x1 :: x2 :: l)) _ (s "combine")).
    + apply nest_intro; left; reflexivity.
    + intros tr. rewrite check_combine_eq. reflexivity.
    + apply completers_uniform. rewrite children_combine in IH. exact IH.
  - intros tr t H. pose proof H as H0. rewrite check_kvl_eq in H. unfold check_key_value_list in H.
    destruct args as [|a1 [|a2 [|a3 r]]]; try (destruct a1; discriminate);
      try (destruct a1; try discriminate; destruct a2; discriminate); try discriminate.
    destruct a1; try discriminate. destruct a2; try discriminate. destruct a3 as [| | | | |l|]; try discriminate.
    apply bind_ok' in H as ([] & H1 & H). apply bind_ok' in H as ([] & H2 & H).
    apply bind_ok' in H as ([] & H3 & H). apply bind_ok' in H as ([] & H4 & H).
    clear H. revert tr t H0.
    apply (nested_uniform (fun tr => do (trace', keys) <- kvl_entries check tr [] l;
      if excludes_exist keys l then Ok trace' else Err (sch "No such key")) _ (s "key_value_list")).
    + apply nest_intro; right; left; reflexivity.
    + intros tr. rewrite check_kvl_eq. unfold check_key_value_list.
      rewrite H1. cbn [bind]. rewrite H2. cbn [bind]. rewrite H3. cbn [bind]. rewrite H4.
      reflexivity.
    + intros tr t H. apply bind_ok' in H as ([t' keys] & H5 & H6).
      destruct (excludes_exist keys l) eqn:Ee; [|discriminate]. injection H6 as ->.
      rewrite children_kvl in IH. destruct (kvl_uniform l IH _ _ _ _ H5) as (d & -> & F).
      exists d. split; [reflexivity|]. intros tr2 Hl. rewrite F by exact Hl. cbn [bind].
      rewrite Ee. reflexivity.
  - intros tr t H. pose proof H as H0. rewrite check_kvp_eq in H. unfold check_key_value_pair in H.
    destruct args as [|a1 [|a2 r]]; try (destruct a1; discriminate); try discriminate.
    destruct a1; try discriminate. destruct a2 as [| | | | |l|]; try discriminate.
    apply bind_ok' in H as ([] & H1 & H). apply bind_ok' in H as ([] & H2 & H).
    apply bind_ok' in H as ([] & H3 & H).
    clear H. revert tr t H0.
    apply (nested_uniform (fun tr => kvp_entries check tr l) _ (s "key_value_pair")).
    + apply nest_intro; right; right; left; reflexivity.
    + intros tr. rewrite check_kvp_eq. unfold check_key_value_pair.
      rewrite H1. cbn [bind]. rewrite H2. cbn [bind]. rewrite H3. reflexivity.
    + rewrite children_kvp in IH. apply kvp_uniform. exact IH.
  - intros tr t H. pose proof H as H0. rewrite check_list_eq in H. unfold check_list in H.
    destruct args as [|a r]; try discriminate. apply bind_ok' in H as ([] & H1 & H).
    clear H. revert tr t H0.
    apply (nested_uniform (fun tr => check tr a) _ (s "list")).
    + apply nest_intro; right; right; right; left; reflexivity.
    + intros tr. rewrite check_list_eq. unfold check_list. rewrite H1. reflexivity.
    + intros tr t H. destruct (IH a) with (tr := tr) (t := t) as (d & -> & _ & F);
        [rewrite children_list; left; reflexivity|exact H|].
      exists d. split; [reflexivity|]. intros tr2 Hl. apply F; left; exact Hl.
  - intros tr t H. pose proof H as H0. rewrite check_prefix_eq in H. unfold check_prefix in H.
    destruct args as [|a [|b [|]]]; try discriminate; try (destruct a; discriminate).
    destruct a; try discriminate.
    clear H. revert tr t H0.
    apply (nested_uniform (fun tr => check tr b) _ (s "prefix")).
    + apply nest_intro; right; right; right; right; left; reflexivity.
    + intros tr. rewrite check_prefix_eq. reflexivity.
    + intros tr t H. destruct (IH b) with (tr := tr) (t := t) as (d & -> & _ & F);
        [rewrite children_prefix; left; reflexivity|exact H|].
      exists d. split; [reflexivity|]. intros tr2 Hl. apply F; left; exact Hl.
  - intros tr t H. apply (check_other_eq _ _ _ _ Hx) in H as (-> & k & G & Hs & H).
    exists []. rewrite app_nil_r. split; [reflexivity|]. split; [left; reflexivity|].
    intros tr2 Hl. rewrite app_nil_r. apply check_other_eq; [exact Hx|].
    split; [reflexivity|]. exists k. split; [exact G|]. split; [exact Hs|].
    rewrite <- H. apply check_simple_last. destruct Hl as [Hl|Hl]; [left; exact Hl|right].
    apply (sensitive_kind x); assumption.
Qed.

(** ** Judging a list of siblings *)
Notation ok := (accepted e c).

Lemma ok_any tr tr' x : ~ sensitive x -> ok tr x -> ok tr' x.
Proof.
  intros H [t Ht]. destruct (uniform_all _ _ _ Ht) as (d & -> & _ & F).
  exists (tr' ++ d). apply F. right; exact H.
Qed.
Lemma result_same tr x t : check tr x = Ok t -> ~ nesting x -> t = tr.
Proof.
  intros H Hn. destruct (uniform_all _ _ _ H) as (d & -> & [->|Hd] & _); [apply app_nil_r|contradiction].
Qed.

Definition sib (l : list value) : Prop :=
  forall l1 y l2 z, l = l1 ++ y :: l2 -> nesting y -> In z l2 -> ~ sensitive z.
Lemma sib_tail x l : sib (x :: l) -> sib l.
Proof. intros H l1 y l2 z -> Hy Hz. apply (H (x :: l1) y l2 z); auto. Qed.
Lemma sib_app l l' : sib (l ++ l') -> sib l'.
Proof. intros H l1 y l2 z -> Hy Hz. apply (H (l ++ l1) y l2 z); auto. apply app_assoc. Qed.
Lemma nesting_dec x : nesting x \/ ~ nesting x.
Proof.
  unfold nesting. destruct (in_dec str_eq_dec (name_of x)
    [s "combine"; s "key_value_list"; s "key_value_pair"; s "list"; s "prefix"]); auto.
Qed.

Lemma settled_head tr tr' x l : (tr' = tr \/ forall z, In z (x :: l) -> ~ sensitive z) ->
  ok tr' x <-> ok tr x.
Proof.
  intros [->|H]; [tauto|]. assert (Hx : ~ sensitive x) by (apply H; left; reflexivity).
  split; apply ok_any; exact Hx.
Qed.
Lemma settled_tail tr tr' x l t : sib (x :: l) -> check tr' x = Ok t ->
  (tr' = tr \/ forall z, In z (x :: l) -> ~ sensitive z) ->
  (t = tr \/ forall z, In z l -> ~ sensitive z).
Proof.
  intros HS Ht [->|H].
  - destruct (nesting_dec x) as [Hn|Hn].
    + right. intros z Hz. apply (HS [] x l z eq_refl Hn Hz).
    + left. apply (result_same _ _ _ Ht Hn).
  - right. intros z Hz. apply H; right; exact Hz.
Qed.

Lemma completers_step l : sib l -> forall tr tr',
  (tr' = tr \/ forall z, In z l -> ~ sensitive z) ->
  (exists t, completers check tr' l = Ok t) <-> Forall (ok tr) l.
Proof.
  induction l as [|x l IH]; intros HS tr tr' HT.
  - split; [constructor|]. intros _. exists tr'. reflexivity.
  - cbn [completers]. split.
    + intros [t H]. apply bind_ok' in H as (t1 & H1 & H2).
      constructor; [apply (settled_head tr tr' x l HT); exists t1; exact H1|].
      apply (IH (sib_tail _ _ HS) tr t1); [apply (settled_tail tr tr' x l t1); assumption|].
      exists t; exact H2.
    + intros H. inversion H as [|? ? Hx Hl]; subst.
      apply (settled_head tr tr' x l HT) in Hx as [t1 Ht1].
      apply (IH (sib_tail _ _ HS) tr t1) in Hl as [t Ht].
      * exists t. rewrite Ht1. exact Ht.
      * apply (settled_tail tr tr' x l t1); assumption.
Qed.

Lemma optional_cases v : (v = VNone /\ forall tr, optional_completer check tr v = Ok tr) \/
  (v <> VNone /\ forall tr, optional_completer check tr v = check tr v).
Proof.
  destruct v; (left; split; reflexivity) || (right; split; [discriminate|reflexivity]).
Qed.
Lemma entry_completer_none a b r : entry_completer (VList (a :: b :: VNone :: r)) = [].
Proof. reflexivity. Qed.
Lemma entry_completer_some a b x r : x <> VNone -> entry_completer (VList (a :: b :: x :: r)) = [x].
Proof. destruct x; congruence || reflexivity. Qed.
Lemma blank_entry_none a b r :
  blank_entry (VList (a :: b :: VNone :: r)) = VList (a :: b :: VNone :: r).
Proof. reflexivity. Qed.
Lemma blank_entry_some a b x r : x <> VNone ->
  blank_entry (VList (a :: b :: x :: r)) = VList (a :: b :: harmless :: r).
Proof. destruct x; congruence || reflexivity. Qed.

Definition rest_check (rest : list value) : res unit :=
  match rest with [ex] => check_excludes ex | _ => Ok tt end.
Lemma kvl_cons tr keys key desc co rest l :
  kvl_entries check tr keys (VList (key :: desc :: co :: rest) :: l) =
  if Nat.leb (length rest) 1 then
    do _ <- check_type co [TList; TNone];
    do k <- check_key key desc;
    if mems k keys then Err (sch "Duplicate key")
    else do trace' <- optional_completer check tr co;
         do _ <- rest_check rest;
         kvl_entries check trace' (keys ++ [k]) l
  else Err (sch "List must contain exact 3/4 items").
Proof. destruct rest as [|ex [|]]; reflexivity. Qed.

Lemma harmless_type : check_type harmless [TList; TNone] = Ok tt.
Proof. reflexivity. Qed.
Lemma completer_type tr x t : check tr x = Ok t -> check_type x [TList; TNone] = Ok tt.
Proof. intros H. destruct (check_shape _ _ _ H) as (n & args & ->). reflexivity. Qed.
Lemma optional_harmless tr : optional_completer check tr harmless = Ok tr.
Proof. apply check_harmless. Qed.

Lemma kvl_step l : sib (flat_map entry_completer l) -> forall tr tr' tr'' keys ks,
  (tr' = tr \/ forall z, In z (flat_map entry_completer l) -> ~ sensitive z) ->
  (exists t, kvl_entries check tr' keys l = Ok (t, ks)) <->
  (exists t, kvl_entries check tr'' keys (map blank_entry l) = Ok (t, ks)) /\
  Forall (ok tr) (flat_map entry_completer l).
Proof.
  induction l as [|x l IH]; intros HS tr tr' tr'' keys ks HT.
  - cbn [kvl_entries map flat_map]. split.
    + intros [t H]. injection H as _ ->. split; [exists tr''; reflexivity|constructor].
    + intros [[t H] _]. injection H as _ ->. exists tr'; reflexivity.
  - destruct x as [| | | | |x|];
      try (split; [intros [t H]; discriminate|intros [[t H] _]; discriminate]).
    destruct x as [|key [|desc [|co rest]]];
      try (split; [intros [t H]; discriminate|intros [[t H] _]; discriminate]).
    cbn [flat_map] in HS. pose proof (sib_app _ _ HS) as HS'.
    specialize (IH HS' tr). cbn [map flat_map].
    destruct (optional_cases co) as [[-> Hopt]|[Hn Hopt]].
    + rewrite entry_completer_none, blank_entry_none in *. cbn [app] in *. rewrite !kvl_cons.
      destruct (Nat.leb (length rest) 1); [|split; [intros [t H]; discriminate|intros [[t H] _]; discriminate]].
      specialize (IH tr' tr''). cbn [flat_map] in HT. rewrite entry_completer_none in HT.
      cbn [app] in HT. rewrite !Hopt.
      destruct (check_type VNone [TList; TNone]) as [|[]];
        [split; [intros [t H]; discriminate|intros [[t H] _]; discriminate]|]. cbn [bind].
      destruct (check_key key desc) as [|k];
        [split; [intros [t H]; discriminate|intros [[t H] _]; discriminate]|]. cbn [bind].
      destruct (mems k keys); [split; [intros [t H]; discriminate|intros [[t H] _]; discriminate]|].
      destruct (rest_check rest) as [|[]];
        [split; [intros [t H]; discriminate|intros [[t H] _]; discriminate]|]. cbn [bind].
      apply IH. exact HT.
    + rewrite (blank_entry_some _ _ _ _ Hn). rewrite (entry_completer_some _ _ _ _ Hn) in *.
      cbn [app] in *. cbn [flat_map] in HT. rewrite (entry_completer_some _ _ _ _ Hn) in HT.
      cbn [app] in HT. rewrite !kvl_cons.
      destruct (Nat.leb (length rest) 1); [|split; [intros [t H]; discriminate|intros [[t H] _]; discriminate]].
      rewrite harmless_type, optional_harmless, Hopt. cbn [bind]. split.
      * intros [t H]. apply bind_ok' in H as ([] & H1 & H).
        apply bind_ok' in H as (k & H2 & H). destruct (mems k keys) eqn:Ek; [discriminate|].
        apply bind_ok' in H as (t1 & H3 & H). apply bind_ok' in H as ([] & H4 & H).
        rewrite H2. cbn [bind]. rewrite Ek, H4. cbn [bind].
        destruct (proj1 (IH t1 tr'' (keys ++ [k]) ks (settled_tail tr tr' co _ t1 HS H3 HT)))
          as [G1 G2]; [exists t; exact H|].
        split; [exact G1|]. constructor; [|exact G2].
        apply (settled_head tr tr' co _ HT). exists t1; exact H3.
      * intros [[t H] HF]. inversion HF as [|? ? Hco Hl]; subst.
        apply (settled_head tr tr' co _ HT) in Hco as [t1 H3].
        apply bind_ok' in H as (k & H2 & H). destruct (mems k keys) eqn:Ek; [discriminate|].
        apply bind_ok' in H as ([] & H4 & H).
        destruct (proj2 (IH t1 tr'' (keys ++ [k]) ks (settled_tail tr tr' co _ t1 HS H3 HT)))
          as [t2 Ht2]; [split; [exists t; exact H|exact Hl]|].
        exists t2. rewrite (completer_type _ _ _ H3). cbn [bind]. rewrite H2. cbn [bind].
        rewrite Ek, H3. cbn [bind]. rewrite H4. exact Ht2.
Qed.

Lemma kvp_step l : sib (flat_map entry_completer l) -> forall tr tr' tr'',
  (tr' = tr \/ forall z, In z (flat_map entry_completer l) -> ~ sensitive z) ->
  (exists t, kvp_entries check tr' l = Ok t) <->
  (exists t, kvp_entries check tr'' (map blank_entry l) = Ok t) /\
  Forall (ok tr) (flat_map entry_completer l).
Proof.
  induction l as [|x l IH]; intros HS tr tr' tr'' HT.
  - cbn [kvp_entries map flat_map]. split.
    + intros [t H]. split; [exists tr''; reflexivity|constructor].
    + intros _. exists tr'; reflexivity.
  - destruct x as [| | | | |x|];
      try (split; [intros [t H]; discriminate|intros [[t H] _]; discriminate]).
    destruct x as [|key [|desc [|co [|r0 rest]]]];
      try (split; [intros [t H]; discriminate|intros [[t H] _]; discriminate]).
    2: { destruct co; split; try (intros [t H]; discriminate); intros [[t H] _]; discriminate. }
    cbn [flat_map] in HS. pose proof (sib_app _ _ HS) as HS'.
    specialize (IH HS' tr). cbn [map flat_map].
    destruct (optional_cases co) as [[-> Hopt]|[Hn Hopt]].
    + rewrite entry_completer_none, blank_entry_none in *. cbn [app kvp_entries] in *.
      specialize (IH tr' tr''). cbn [flat_map] in HT. rewrite entry_completer_none in HT.
      cbn [app] in HT. rewrite !Hopt.
      destruct (check_type VNone [TList; TNone]) as [|[]];
        [split; [intros [t H]; discriminate|intros [[t H] _]; discriminate]|]. cbn [bind].
      destruct (check_key key desc) as [|k];
        [split; [intros [t H]; discriminate|intros [[t H] _]; discriminate]|]. cbn [bind].
      apply IH. exact HT.
    + rewrite (blank_entry_some _ _ _ _ Hn). rewrite (entry_completer_some _ _ _ _ Hn) in *.
      cbn [app] in *. cbn [flat_map] in HT. rewrite (entry_completer_some _ _ _ _ Hn) in HT.
      cbn [app] in HT. cbn [kvp_entries].
      rewrite harmless_type, optional_harmless, Hopt. cbn [bind]. split.
      * intros [t H]. apply bind_ok' in H as ([] & H1 & H).
        apply bind_ok' in H as (k & H2 & H). apply bind_ok' in H as (t1 & H3 & H).
        rewrite H2. cbn [bind].
        destruct (proj1 (IH t1 tr'' (settled_tail tr tr' co _ t1 HS H3 HT)))
          as [G1 G2]; [exists t; exact H|].
        split; [exact G1|]. constructor; [|exact G2].
        apply (settled_head tr tr' co _ HT). exists t1; exact H3.
      * intros [[t H] HF]. inversion HF as [|? ? Hco Hl]; subst.
        apply (settled_head tr tr' co _ HT) in Hco as [t1 H3].
        apply bind_ok' in H as (k & H2 & H).
        destruct (proj2 (IH t1 tr'' (settled_tail tr tr' co _ t1 HS H3 HT)))
          as [t2 Ht2]; [split; [exists t; exact H|exact Hl]|].
        exists t2. rewrite (completer_type _ _ _ H3). cbn [bind]. rewrite H2. cbn [bind].
        rewrite H3. exact Ht2.
Qed.

Lemma excludes_blank keys l : excludes_exist keys (map blank_entry l) = excludes_exist keys l.
Proof.
  induction l as [|x l IH]; [reflexivity|]. unfold excludes_exist in *. cbn [map forallb].
  rewrite IH. f_equal. destruct x as [| | | | |x|]; try reflexivity.
  destruct x as [|a [|b [|co r]]]; try reflexivity. destruct co; reflexivity.
Qed.
Lemma completers_blank tr (l : list value) : completers check tr (map (fun _ => harmless) l) = Ok tr.
Proof.
  induction l as [|x l IH]; cbn [map completers]; [reflexivity|]. rewrite check_harmless. exact IH.
Qed.

(** A completer is accepted exactly if it is fine by itself and the completers directly inside
    of it are accepted in their place. *)
Lemma accepted_step tr v : sib (children v) ->
  ok tr v <-> ok tr (blank v) /\ Forall (ok (tr ++ [name_of v])) (children v).
Proof.
  intros HS. destruct v as [| | | | |v|];
    try (split; [intros [t H]; discriminate|intros [[t H] _]; discriminate]).
  destruct v as [|x args]; [split; [intros [t H]; discriminate|intros [[t H] _]; discriminate]|].
  destruct x as [| | | |x| |];
    try (split; [intros [t H]; discriminate|intros [[t H] _]; discriminate]).
  cbn [name_of]. unfold accepted at 1 2.
  destruct (classify x) as [E|E|E|E|E|Hx]; [rewrite E in *; clear x E..|].
  - change (blank (VList (VStr (s "combine") :: args))) with
      (VList (VStr (s "combine") :: match args with
         [VList l] => [VList (map (fun _ => harmless) l)] | _ => args end)).
    rewrite !check_combine_eq. unfold check_combine.
    destruct args as [|[| | | | |l|] [|]];
      try (split; [intros [t H]; discriminate|intros [[t H] _]; discriminate]).
    rewrite children_combine in *.
    destruct l as [|x1 [|x2 l]];
      try (split; [intros [t H]; discriminate|intros [[t H] _]; discriminate]).
    cbn [map]. change (completers check (tr ++ [s "combine"]) (harmless :: harmless :: map (fun _ => harmless) l))
      with (completers check (tr ++ [s "combine"]) (map (fun _ => harmless) (x1 :: x2 :: l))).
    rewrite completers_blank.
    rewrite (completers_step _ HS (tr ++ [s "combine"])) by (left; reflexivity).
    split; [intros H; split; [eauto|exact H]|intros [_ H]; exact H].
  - change (blank (VList (VStr (s "key_value_list") :: args))) with
      (VList (VStr (s "key_value_list") :: match args with
         a :: b :: VList l :: r => a :: b :: VList (map blank_entry l) :: r | _ => args end)).
    rewrite !check_kvl_eq. unfold check_key_value_list.
    destruct args as [|a1 [|a2 [|a3 r]]];
      [split; [intros [t H]; discriminate|intros [[t H] _]; discriminate]
      |destruct a1; (split; [intros [t H]; discriminate|intros [[t H] _]; discriminate])
      |destruct a1; destruct a2; (split; [intros [t H]; discriminate|intros [[t H] _]; discriminate])|].
    destruct a3 as [| | | | |l|];
      try solve [destruct a1; try destruct a2; (split; [intros [t H]; discriminate|intros [[t H] _]; discriminate])].
    destruct a1; try (split; [intros [t H]; discriminate|intros [[t H] _]; discriminate]).
    destruct a2; try (split; [intros [t H]; discriminate|intros [[t H] _]; discriminate]).
    rewrite children_kvl in *.
    match goal with |- context[check_char ?w] => destruct (check_char w) as [|[]];
      [split; [intros [t H]; discriminate|intros [[t H] _]; discriminate]|] end. cbn [bind].
    match goal with |- context[check_char ?w] => destruct (check_char w) as [|[]];
      [split; [intros [t H]; discriminate|intros [[t H] _]; discriminate]|] end. cbn [bind].
    assert (Hne : check_non_empty_list (VList (map blank_entry l)) = check_non_empty_list (VList l))
      by (destruct l; reflexivity).
    rewrite Hne. destruct (check_non_empty_list (VList l)) as [|[]];
      [split; [intros [t H]; discriminate|intros [[t H] _]; discriminate]|]. cbn [bind].
    destruct (check_condition_func r) as [|[]];
      [split; [intros [t H]; discriminate|intros [[t H] _]; discriminate]|]. cbn [bind].
    set (tr1 := tr ++ [s "key_value_list"]).
    pose proof (fun ks => kvl_step l HS tr1 tr1 tr1 [] ks (or_introl eq_refl)) as K. split.
    + intros [t H]. apply bind_ok' in H as ([t' ks] & H1 & H2).
      destruct (excludes_exist ks l) eqn:Ee; [|discriminate]. injection H2 as ->.
      destruct (proj1 (K ks) (ex_intro _ t H1)) as [[t2 G1] G2]. split; [|exact G2].
      exists t2. rewrite G1. cbn [bind]. rewrite excludes_blank, Ee. reflexivity.
    + intros [[t H] HF]. apply bind_ok' in H as ([t' ks] & H1 & H2).
      rewrite excludes_blank in H2. destruct (excludes_exist ks l) eqn:Ee; [|discriminate].
      destruct (proj2 (K ks) (conj (ex_intro _ t' H1) HF)) as [t2 G].
      exists t2. rewrite G. cbn [bind]. rewrite Ee. reflexivity.
  - change (blank (VList (VStr (s "key_value_pair") :: args))) with
      (VList (VStr (s "key_value_pair") :: match args with
         a :: VList l :: r => a :: VList (map blank_entry l) :: r | _ => args end)).
    rewrite !check_kvp_eq. unfold check_key_value_pair.
    destruct args as [|a1 [|a2 r]];
      [split; [intros [t H]; discriminate|intros [[t H] _]; discriminate]
      |destruct a1; (split; [intros [t H]; discriminate|intros [[t H] _]; discriminate])|].
    destruct a2 as [| | | | |l|];
      try solve [destruct a1; (split; [intros [t H]; discriminate|intros [[t H] _]; discriminate])].
    destruct a1; try (split; [intros [t H]; discriminate|intros [[t H] _]; discriminate]).
    rewrite children_kvp in *.
    match goal with |- context[check_char ?w] => destruct (check_char w) as [|[]];
      [split; [intros [t H]; discriminate|intros [[t H] _]; discriminate]|] end. cbn [bind].
    assert (Hne : check_non_empty_list (VList (map blank_entry l)) = check_non_empty_list (VList l))
      by (destruct l; reflexivity).
    rewrite Hne. destruct (check_non_empty_list (VList l)) as [|[]];
      [split; [intros [t H]; discriminate|intros [[t H] _]; discriminate]|]. cbn [bind].
    destruct (check_condition_func r) as [|[]];
      [split; [intros [t H]; discriminate|intros [[t H] _]; discriminate]|]. cbn [bind].
    apply kvp_step; [exact HS|left; reflexivity].
  - change (blank (VList (VStr (s "list") :: args))) with
      (VList (VStr (s "list") :: match args with _ :: r => harmless :: r | _ => args end)).
    rewrite !check_list_eq. unfold check_list.
    destruct args as [|a r]; [split; [intros [t H]; discriminate|intros [[t H] _]; discriminate]|].
    rewrite children_list. destruct (check_list_options r) as [|[]];
      [split; [intros [t H]; discriminate|intros [[t H] _]; discriminate]|]. cbn [bind].
    rewrite check_harmless. split.
    + intros H. split; [eauto|]. constructor; [exact H|constructor].
    + intros [_ H]. inversion H; assumption.
  - change (blank (VList (VStr (s "prefix") :: args))) with
      (VList (VStr (s "prefix") :: match args with [a; _] => [a; harmless] | _ => args end)).
    rewrite !check_prefix_eq. unfold check_prefix.
    destruct args as [|a [|b [|]]];
      [split; [intros [t H]; discriminate|intros [[t H] _]; discriminate]
      |destruct a; (split; [intros [t H]; discriminate|intros [[t H] _]; discriminate])| |destruct a; (split; [intros [t H]; discriminate|intros [[t H] _]; discriminate])].
    destruct a; try (split; [intros [t H]; discriminate|intros [[t H] _]; discriminate]).
    rewrite children_prefix, check_harmless. split.
    + intros H. split; [eauto|]. constructor; [exact H|constructor].
    + intros [_ H]. inversion H; assumption.
  - rewrite blank_other, children_other by exact Hx. split.
    + intros H. split; [exact H|constructor].
    + intros [H _]; exact H.
Qed.

(** ** Nesting at any depth *)
Lemma undisturbed_sib v : undisturbed v -> sib (children v).
Proof. intros H l1 y l2 z E Hy Hz. apply (H [] v l1 y l2 z (inside_self _ _) E Hy Hz). Qed.
Lemma inside_below enc v y enc' x : In y (children v) ->
  inside (enc ++ [name_of v]) y enc' x -> inside enc v enc' x.
Proof.
  intros Hy H. induction H as [|enc' x z _ IH Hz]; [apply inside_child; [constructor|exact Hy]|].
  apply inside_child; assumption.
Qed.
Lemma inside_any enc enc2 v enc' x : inside enc v enc' x -> exists enc'', inside enc2 v enc'' x.
Proof.
  induction 1 as [|enc' x z _ [enc'' IH] Hz]; [exists enc2; constructor|].
  exists (enc'' ++ [name_of x]). apply inside_child; assumption.
Qed.
Lemma undisturbed_below v y : undisturbed v -> In y (children v) -> undisturbed y.
Proof.
  intros H Hy enc x l1 y' l2 z Hi. destruct (inside_any _ ([] ++ [name_of v]) _ _ _ Hi) as [enc'' Hi'].
  apply (inside_below _ _ _ _ _ Hy) in Hi'. apply (H enc'' x l1 y' l2 z Hi').
Qed.
Lemma undisturbed_inside v enc enc' x : undisturbed v -> inside enc v enc' x -> undisturbed x.
Proof. intros H Hi. induction Hi; [exact H|]. eapply undisturbed_below; eauto. Qed.

Lemma accepted_inside v enc : undisturbed v ->
  ok enc v <-> forall enc' x, inside enc v enc' x -> fine e c enc' x.
Proof.
  intros HU. split.
  - intros H enc' x Hi. assert (ok enc' x) as Hx.
    { induction Hi as [|enc' x y Hi IH Hy]; [exact H|].
      pose proof (undisturbed_sib _ (undisturbed_inside _ _ _ _ HU Hi)) as HS.
      apply (accepted_step _ _ HS) in IH as [_ HF]. rewrite Forall_forall in HF.
      apply HF; exact Hy. }
    apply (accepted_step _ _ (undisturbed_sib _ (undisturbed_inside _ _ _ _ HU Hi))) in Hx.
    exact (proj1 Hx).
  - remember (vsize v) as n eqn:Hn. revert v enc HU Hn.
    induction n as [n IHn] using (well_founded_induction lt_wf). intros v enc HU -> H.
    apply accepted_step; [apply undisturbed_sib; exact HU|]. split; [apply H; constructor|].
    apply Forall_forall. intros y Hy. eapply IHn; [|eapply undisturbed_below; eassumption|reflexivity|].
    + apply children_size; exact Hy.
    + intros enc' x Hi. apply H. eapply inside_below; eassumption.
Qed.
End Check.

Lemma check_option_ok e ps v : check_option e ps v = Ok tt <-> check_option0 e ps v = Ok tt.
Proof. unfold check_option. destruct (check_option0 e ps v); [split; discriminate|reflexivity]. Qed.
