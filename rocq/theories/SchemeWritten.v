(** * Proofs about the forms that validation accepts (C84): completers in their place. *)
From Verif Require Import Base Dict Value StrUtils StrUtilsProofs Cli DictSource When SchemeValidator SpecScheme
  SchemeNested SchemeProofs SpecCli CliMore SpecValid SchemeForms SchemeKinds.
Local Open Scope string_scope.
Local Open Scope list_scope.

Section Written.
Variables (e : env) (c : ctx).
Notation check := (check_complete e c).

(** ** Completers with nested completers, the nested ones made harmless *)
Lemma key_iff key desc k : check_key key desc = Ok k <->
  key = VStr k /\ filled k /\ solid k /\ nullable a_text desc.
Proof.
  unfold check_key. split.
  - destruct key; try discriminate. intros H. apply bind_ok' in H as ([] & H1 & H).
    apply bind_ok' in H as ([] & H2 & H). apply bind_ok' in H as ([] & H3 & H). apply Ok_inj in H. subst k.
    split; [reflexivity|]. apply filled_str in H2 as (x' & E & Hf). injection E as <-.
    split; [exact Hf|]. split; [|now apply type_text_null].
    apply solid_iff. cbn [check_no_spaces on_str] in H3. destruct (contains_space x); [discriminate|reflexivity].
  - intros (-> & Hf & Hs & Hd). apply type_text_null in Hd. rewrite Hd. cbn [bind].
    assert (F : check_non_empty_string (VStr k) = Ok tt) by (apply filled_str; exists k; auto).
    rewrite F. cbn [bind]. apply solid_iff in Hs. cbn [check_no_spaces on_str]. rewrite Hs. reflexivity.
Qed.

Lemma kvl_blank_cons tr keys key desc co rest l :
  kvl_entries check tr keys (blank_entry (VList (key :: desc :: co :: rest)) :: l) =
  if Nat.leb (length rest) 1 then
    do k <- check_key key desc;
    if mems k keys then Err (sch "Duplicate key")
    else do _ <- rest_check rest;
         kvl_entries check tr (keys ++ [k]) l
  else Err (sch "List must contain exact 3/4 items").
Proof.
  destruct (optional_cases e c co) as [[-> Hopt]|[Hn _]].
  - rewrite blank_entry_none, kvl_cons, Hopt. reflexivity.
  - rewrite (blank_entry_some _ _ _ _ Hn), kvl_cons, optional_harmless. reflexivity.
Qed.

Lemma excludes_iff v : check_excludes v = Ok tt <->
  exists xs, v = VList (map VStr xs) /\ Forall filled xs.
Proof.
  split.
  - destruct v; try discriminate. cbn [check_excludes]. intros H. rewrite each_iff in H.
    assert (K : forall x, In x l -> exists y, x = VStr y /\ filled y).
    { intros x Hx. specialize (H x Hx). unfold check_exclude in H. rewrite bind_tt_iff, type_text in H.
      apply filled_iff in H as (y & -> & Hy). eauto. }
    clear H. induction l as [|x l IH]; [exists []; split; [reflexivity|constructor]|].
    destruct (K x (or_introl eq_refl)) as (y & -> & Hy).
    destruct (IH (fun z Hz => K z (or_intror Hz))) as (xs & E & Hxs). injection E as ->.
    exists (y :: xs). split; [reflexivity|]. constructor; assumption.
  - intros (xs & -> & H). cbn [check_excludes]. apply each_iff. intros x Hx. apply in_map_iff in Hx as (y & <- & Hy).
    rewrite Forall_forall in H. unfold check_exclude. rewrite bind_tt_iff, type_text. apply filled_iff. exists y. auto.
Qed.

(** The entries [l] define the keys and exclusions [es]. *)
Definition entries_of (es : list (str * list str)) (l : list value) : Prop :=
  Forall2 (fun kx v => key_entry (fst kx) (snd kx) v) es l.

Lemma kvl_blank_iff l : forall tr keys t ks,
  kvl_entries check tr keys (map blank_entry l) = Ok (t, ks) <->
  t = tr /\ exists es, ks = keys ++ map fst es /\ entries_of es l /\ NoDup (map fst es) /\
    (forall k, In k (map fst es) -> ~ In k keys) /\ Forall (fun kx => Forall filled (snd kx)) es.
Proof.
  unfold entries_of. induction l as [|x l IH]; intros tr keys t ks.
  - cbn [map kvl_entries]. split.
    + intros H. injection H as -> ->. split; [reflexivity|]. exists []. cbn [map]. rewrite app_nil_r.
      repeat split; try constructor. intros k [].
    + intros (-> & es & -> & H & _). inversion H. cbn [map]. now rewrite app_nil_r.
  - cbn [map]. split.
    + intros H. destruct x as [| | | | |x|]; try discriminate. destruct x as [|key [|desc [|co rest]]]; try discriminate.
      rewrite kvl_blank_cons in H. destruct (Nat.leb (length rest) 1) eqn:El; [|discriminate].
      apply bind_ok' in H as (k & Hk & H). destruct (mems k keys) eqn:Ek; [discriminate|].
      apply bind_ok' in H as ([] & Hr & H). apply IH in H as (-> & es & -> & Hes & Hnd & Hdis & Hf).
      apply key_iff in Hk as (-> & Hkf & Hks & Hd). split; [reflexivity|].
      assert (Hx : exists ex, Forall filled ex /\ (rest = [] /\ ex = [] \/ rest = [VList (map VStr ex)])).
      { destruct rest as [|ex [|]]; [exists []; auto| |discriminate].
        cbn [rest_check] in Hr. apply excludes_iff in Hr as (xs & -> & Hxs). exists xs. auto. }
      destruct Hx as (ex & Hex & Hrest). exists ((k, ex) :: es). cbn [map fst snd].
      split; [rewrite <- app_assoc; reflexivity|]. split.
      { constructor; [|exact Hes]. cbn [fst snd]. split; [exact Hkf|]. split; [exact Hks|].
        exists desc, co. split; [exact Hd|]. destruct Hrest as [[-> ->]| ->]; auto. }
      split.
      { constructor; [|exact Hnd]. intros Hin. apply (Hdis k Hin). apply in_or_app. right; left; reflexivity. }
      split; [|constructor; assumption].
      intros k' [<-|Hk'].
      * intros Hin. apply mems_In in Hin. congruence.
      * intros Hin. apply (Hdis k' Hk'). apply in_or_app. left; exact Hin.
    + intros (-> & es & -> & Hes & Hnd & Hdis & Hf). inversion Hes as [|[k ex] y es' l' Hkx Hes']; subst.
      cbn [map fst snd] in *. destruct Hkx as (Hkf & Hks & desc & co & Hd & Hv).
      inversion Hnd as [|? ? Hni Hnd']; subst. inversion Hf as [|? ? Hex Hf']; subst. cbn [snd] in Hex.
      assert (Hrest : exists rest, x = VList (VStr k :: desc :: co :: rest) /\ Nat.leb (length rest) 1 = true /\
        rest_check rest = Ok tt).
      { destruct Hv as [[-> ->]| ->]; [exists []; auto|]. eexists. split; [reflexivity|]. split; [reflexivity|].
        cbn [rest_check]. apply excludes_iff. exists ex. auto. }
      destruct Hrest as (rest & -> & El & Hr). rewrite kvl_blank_cons, El.
      rewrite (proj2 (key_iff (VStr k) desc k) (conj eq_refl (conj Hkf (conj Hks Hd)))). cbn [bind].
      destruct (mems k keys) eqn:Ek; [apply mems_In in Ek; destruct (Hdis k (or_introl eq_refl) Ek)|].
      rewrite Hr. cbn [bind]. apply IH. split; [reflexivity|]. exists es'.
      split; [rewrite <- app_assoc; reflexivity|]. split; [exact Hes'|]. split; [exact Hnd'|]. split; [|exact Hf'].
      intros k' Hk' Hin. apply in_app_or in Hin as [Hin|[<-|[]]]; [apply (Hdis k' (or_intror Hk') Hin)|contradiction].
Qed.

Lemma entries_filled es l : entries_of es l -> forall kx, In kx es -> filled (fst kx).
Proof. induction 1 as [|[k ex] v es l H _ IH]; [intros ? []|]. intros kx [<-|Hk]; [apply H|auto]. Qed.
Lemma entries_exclude es l keys : entries_of es l ->
  excludes_exist keys l = true <-> forall kx k, In kx es -> In k (snd kx) -> In k keys.
Proof.
  intros H. unfold excludes_exist. rewrite forallb_forall. induction H as [|[k ex] v es l Hv Hes IH].
  - split; [intros _ ? ? []|intros _ ? []].
  - assert (K : (match v with
                 | VList [_; _; _; VList ex] =>
                     forallb (fun x => match x with VStr k => mems k keys | _ => false end) ex
                 | _ => true end = true) <-> forall k', In k' ex -> In k' keys).
    { cbn [fst snd] in Hv. destruct Hv as (_ & _ & desc & co & _ & [[-> ->]| ->]).
      - split; [intros _ ? []|reflexivity].
      - rewrite forallb_forall. split.
        + intros H k' Hk'. apply mems_In. apply (H (VStr k')). now apply in_map.
        + intros H x Hx. apply in_map_iff in Hx as (k' & <- & Hk'). apply mems_In. auto. }
    split.
    + intros H kx k' [<-|Hin] Hk'.
      * apply (proj1 K (H v (or_introl eq_refl))). exact Hk'.
      * apply (proj1 IH (fun x Hx => H x (or_intror Hx)) kx); assumption.
    + intros H x [<-|Hx]; [|apply (proj2 IH); [intros kx k' Hin; apply (H kx k'); right; exact Hin|exact Hx]].
      apply K. intros k' Hk'. apply (H (k, ex)); [left; reflexivity|exact Hk'].
Qed.

Lemma kvp_blank_iff l : forall tr t,
  kvp_entries check tr (map blank_entry l) = Ok t <-> t = tr /\ Forall plain_entry l.
Proof.
  induction l as [|x l IH]; intros tr t.
  - cbn [map kvp_entries]. split; [intros H; injection H as ->; auto|intros [-> _]; reflexivity].
  - cbn [map]. rewrite Forall_cons_iff. split.
    + intros H. destruct x as [| | | | |x|]; try discriminate.
      destruct x as [|key [|desc [|co [|r rest]]]]; try discriminate; [|destruct co; discriminate].
      assert (H' : exists k, check_key key desc = Ok k /\ kvp_entries check tr (map blank_entry l) = Ok t).
      { destruct (optional_cases e c co) as [[-> Hopt]|[Hn _]].
        - rewrite blank_entry_none in H. cbn [kvp_entries] in H. rewrite Hopt in H.
          apply bind_ok' in H as ([] & _ & H). apply bind_ok' in H as (k & Hk & H). eauto.
        - rewrite (blank_entry_some _ _ _ _ Hn) in H. cbn [kvp_entries] in H. rewrite optional_harmless in H.
          apply bind_ok' in H as ([] & _ & H). apply bind_ok' in H as (k & Hk & H). eauto. }
      destruct H' as (k & Hk & H'). apply IH in H' as [-> Hl]. apply key_iff in Hk as (-> & Hf & Hs & Hd).
      split; [reflexivity|]. split; [|exact Hl]. exists k, desc, co. auto.
    + intros (-> & (k & desc & co & -> & Hf & Hs & Hd) & Hl).
      assert (Hk : check_key (VStr k) desc = Ok k) by (apply key_iff; auto).
      assert (H' : kvp_entries check tr (map blank_entry l) = Ok tr) by (apply IH; auto).
      destruct (optional_cases e c co) as [[-> Hopt]|[Hn _]].
      * rewrite blank_entry_none. cbn [kvp_entries]. rewrite Hopt.
        change (check_type VNone [TList; TNone]) with (@inr exn unit tt). cbn [bind]. rewrite Hk. exact H'.
      * rewrite (blank_entry_some _ _ _ _ Hn). cbn [kvp_entries]. rewrite optional_harmless, harmless_type.
        cbn [bind]. rewrite Hk. exact H'.
Qed.
Lemma condition_func_iff rest : check_condition_func rest = Ok tt <-> no_or_function rest.
Proof.
  unfold no_or_function. split.
  - destruct rest as [|v [|]]; [auto| |destruct v; discriminate]. destruct v; try discriminate; [auto|].
    cbn [check_condition_func]. intros H. apply filled_str in H as (y & E & Hy). injection E as <-. eauto.
  - intros [->|[->|(x & -> & H)]]; [reflexivity|reflexivity|]. cbn [check_condition_func]. apply filled_str. exists x. auto.
Qed.
Lemma list_options_iff rest : proper_args rest -> check_list_options rest = Ok tt <-> options separators always rest.
Proof.
  intros Hp. unfold check_list_options. apply options_iff; [reflexivity|]. intros d ->.
  assert (Hd : proper_dict d) by (apply Hp; left; reflexivity). unfold separators. open_dictionary Hd.
  unfold always. split; [tauto|]. intros ((K & H1 & H2 & _) & _). split; [exact K|]. split; [tauto|].
  repeat (split; [discriminate|]). exact I.
Qed.

(** ** The table *)
Variable enc : list str.
Definition form_of (k : completer) : list value -> Prop :=
  match k with
  | KVoid => fun args => args = []
  | KNone => fun args => args = [] /\ ~ directly_in enc ["combine"; "list"; "prefix"]
  | KChoices => fun args => exists x, args = [x] /\
      (list_of text_or_integer x \/ table text_or_integer text_or_integer x)
  | KCommand =>
      options [("path", a_filled_text); ("path_append", a_filled_text); ("path_prepend", a_filled_text)]
        (fun d => has d "path" -> ~ has d "path_append" /\ ~ has d "path_prepend")
  | KCommandArg => fun args => args = [] /\
      ~ directly_in enc ["combine"; "list"; "key_value_list"; "key_value_pair"] /\
      exists p ps, cx_positional c = Some p /\ cx_positionals c = VList ps /\
        says_true p "repeatable" /\ follows_command p ps
  | KFiledir file list_ => options (filedir_options e file list_) always
  | KRegex => fun args => exists x, args = [x] /\ a_regex e x
  | KRange => fun args => exists a b start stop step,
      (args = [a; b] /\ step = 1%Z \/ exists x, args = [a; b; x] /\ denotes x step) /\
      denotes a start /\ denotes b stop /\ step <> 0%Z /\ in_range start stop step start
  | KExec => fun args => exists x, args = [x] /\ a_text x
  | KKeyValueListExec =>
      fun args => exists x y z, args = [x; y; z] /\ a_character x /\ a_character y /\ a_filled_text z
  | KKeyValuePairExec =>
      fun args => exists x y, args = [x; y] /\ a_character x /\ a_filled_text y
  | KValueList => fun args => exists d, args = [VDict d] /\
      parameters (("values", fun v => filled_list_of a_text v \/ filled_table a_text a_text v)
                  :: separators) d /\ has d "values"
  | KDate => fun args => exists x, args = [x] /\ a_filled_text x
  | KIpAddress => fun args => args = [] \/
      exists x, args = [x] /\ one_of ["ipv4"; "ipv6"; "all"; "ipv4+"; "ipv6+"; "all+"] x
  | KNumber [TInt] => options (number_options an_integer) (ordered e)
  | KNumber [TInt; TFloat] => options (number_options a_number) (ordered e)
  | KNumber _ => fun _ => False
  | KCombine => fun args => exists x y l, args = [VList (x :: y :: l)]
  | KKeyValueList => fun args => exists x y l rest (entries : list (str * list str)),
      args = x :: y :: VList l :: rest /\
      a_character x /\ a_character y /\ l <> [] /\ no_or_function rest /\
      Forall2 (fun kx v => key_entry (fst kx) (snd kx) v) entries l /\ NoDup (map fst entries) /\
      forall kx k, In kx entries -> In k (snd kx) -> In k (map fst entries)
  | KKeyValuePair => fun args => exists x l rest, args = x :: VList l :: rest /\
      a_character x /\ l <> [] /\ Forall plain_entry l /\ no_or_function rest
  | KList => fun args => exists x rest, args = x :: rest /\ options separators always rest
  | KPrefix => fun args => exists x y, args = [x; y] /\ a_text x
  end.

Lemma manual_kind names P m : In (names, P) (manual e c enc) -> In m names ->
  exists k, dget str_eqb (s m) commands = Some k /\ P = form_of k.
Proof.
  unfold manual. cbn [In]. intros H Hm.
  repeat (destruct H as [H|H];
    [injection H as <- <-; cbn [In] in Hm;
     repeat (destruct Hm as [<-|Hm]; [eexists; split; [vm_compute; reflexivity|reflexivity]|]); destruct Hm|]).
  destruct H.
Qed.
Lemma kind_manual n k : dget str_eqb n commands = Some k ->
  exists names m, In (names, form_of k) (manual e c enc) /\ In m names /\ n = s m.
Proof.
  intros H. apply (dget_In str_eqb str_eqb_spec) in H. unfold commands in H. cbn [In] in H.
  Ltac row := (left; reflexivity) + (right; row).
  Ltac found := match goal with |- exists names m, _ /\ _ /\ s ?n = _ =>
    eexists _, n; split; [unfold manual; cbn [In form_of]; row|split; [cbn [In]; tauto|reflexivity]] end.
  repeat (destruct H as [H|H]; [apply pair_equal_spec in H as [<- <-]; found|]). destruct H.
Qed.
End Written.
