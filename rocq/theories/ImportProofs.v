(** * Proofs about the import of validated definitions (C134). *)
From Verif Require Import Base Dict Value StrUtils StrUtilsProofs Cli DictSource SpecDict DictSourceProofs When SchemeValidator SpecScheme
  SchemeNested SchemeProofs SpecCli CliMore SpecValid SchemeForms SchemeKinds SchemeWritten SchemeDefinitions SpecImport.
Local Open Scope string_scope.
Local Open Scope list_scope.

Lemma vget_drop g k d : k <> g -> vget k (drop_key g d) = vget k d.
Proof.
  intros Hk. unfold vget, drop_key. induction d as [|[a b] d IH]; [reflexivity|]. cbn [filter fst].
  destruct (value_eqb_spec a (VStr g)) as [->|E]; cbn [negb dget].
  - destruct (value_eqb_spec (VStr k) (VStr g)) as [E|_]; [congruence|exact IH].
  - destruct (value_eqb (VStr k) a); [reflexivity|exact IH].
Qed.
Lemma vget_snoc k d k' v : vget k (d ++ [(VStr k', v)]) =
  match vget k d with Some x => Some x | None => if str_eqb k k' then Some v else None end.
Proof.
  unfold vget. induction d as [|[a b] d IH]; cbn [app dget].
  - destruct (value_eqb_spec (VStr k) (VStr k')) as [E|E], (str_eqb_spec k k') as [E'|E']; congruence.
  - destruct (value_eqb (VStr k) a); [reflexivity|exact IH].
Qed.

Lemma validate_keys_ok d names : keys_in names d -> validate_keys d names = Ok tt.
Proof.
  intros H. unfold validate_keys. replace (forallb _ d) with true; [reflexivity|]. symmetry. apply forallb_forall.
  intros [k v] Hk. destruct (H k) as (n & Hn & ->); [now apply (in_map fst) in Hk|]. cbn [fst]. now apply mems_In.
Qed.

Lemma as_strs_texts l : Forall a_text l -> exists r, as_strs l = Ok r /\ l = map VStr r.
Proof.
  induction 1 as [|v l [x ->] _ (r & E & ->)]; [exists []; auto|]. exists (x :: r). cbn [as_strs]. rewrite E. auto.
Qed.

(** ** Reading entries *)
Lemma read_text d k : if_given (vget (s k) d) text_or_null ->
  exists r, as_opt_str (getd (s k) VNone d) = Ok r /\
    (forall x, r = Some x -> vget (s k) d = Some (VStr x)).
Proof.
  unfold getd. destruct (vget (s k) d) as [v|]; intros H.
  - destruct (H v eq_refl) as [->|[x ->]]; eexists; (split; [reflexivity|]); [discriminate|].
    intros y E. injection E as <-. reflexivity.
  - exists None. split; [reflexivity|discriminate].
Qed.
Lemma read_bool d k : if_given (vget (s k) d) bool_or_null -> vget (s k) d <> Some VNone ->
  exists b, as_bool (getd (s k) (VBool false) d) = Ok b /\ (b = true -> says_true d k).
Proof.
  unfold getd, says_true. destruct (vget (s k) d) as [v|]; intros H Hn.
  - destruct (H v eq_refl) as [->|[b ->]]; [congruence|]. exists b. split; [reflexivity|]. intros ->. reflexivity.
  - exists false. split; [reflexivity|discriminate].
Qed.
Lemma read_xbool d k : if_given (vget (s k) d) inheritable_bool ->
  exists b, as_xbool (getd (s k) (VStr INHERIT) d) = Ok b /\ (b = XTrue -> says_true d k).
Proof.
  unfold getd, says_true. destruct (vget (s k) d) as [v|]; intros H.
  - destruct (H v eq_refl) as [[[|] ->]| ->]; eexists; (split; [reflexivity|]); try discriminate. reflexivity.
  - exists XInherit. split; [reflexivity|discriminate].
Qed.
Lemma read_sep d k : if_given (vget (s k) d) (one_of ["space"; "equals"; "both"; "INHERIT"]) ->
  exists b, as_sep (getd (s k) (VStr INHERIT) d) = Ok b.
Proof.
  unfold getd. destruct (vget (s k) d) as [v|]; intros H; [|eexists; reflexivity].
  destruct (H v eq_refl) as (x & [<-|[<-|[<-|[<-|[]]]]] & ->); eexists; reflexivity.
Qed.
Lemma read_list d k (P : value -> Prop) : (forall v, P v -> exists y l, v = VList (y :: l)) ->
  if_given (vget (s k) d) (nullable P) ->
  exists r, as_opt_list (getd (s k) VNone d) = Ok r /\
    (sets d k -> exists y l, r = Some (y :: l)).
Proof.
  intros HP. unfold getd, sets. destruct (vget (s k) d) as [v|]; intros H.
  - destruct (H v eq_refl) as [->|Hv].
    + exists None. split; [reflexivity|]. intros (w & E & Hw). congruence.
    + destruct (HP v Hv) as (y & l & ->). exists (Some (y :: l)). split; [reflexivity|eauto].
  - exists None. split; [reflexivity|]. intros (w & E & _). discriminate.
Qed.
Definition a_filled_list (v : value) : Prop := exists y l, v = VList (y :: l).
Lemma checked_list e c v : check_type v opt_list = Ok tt /\ (do _ <- check_complete e c [] v; Ok tt) = Ok tt -> a_filled_list v.
Proof. intros [_ H]. apply bind_ok' in H as (t & H & _). apply check_shape in H as (x & args & ->). exists (VStr x), args. reflexivity. Qed.
Lemma text_given o (P : value -> Prop) : (forall v, P v -> a_text v) -> if_given o (nullable P) -> if_given o text_or_null.
Proof. intros HP H v E. destruct (H v E) as [->|Hv]; [left; reflexivity|right; auto]. Qed.
Lemma condition_text e v : a_condition e v -> a_text v.
Proof. intros (x & _ & -> & _). exists x. reflexivity. Qed.
Lemma variable_text v : a_variable v -> a_text v.
Proof. intros (x & -> & _). exists x. reflexivity. Qed.
Lemma word_text v : a_word v -> a_text v.
Proof. intros (x & -> & _). exists x. reflexivity. Qed.
Lemma capture_name d x : if_given (vget (s "capture") d) (nullable a_variable) ->
  vget (s "capture") d = Some (VStr x) -> variable_name x.
Proof. intros H E. destruct (H _ E) as [K|(y & K & Hy)]; [discriminate|]. injection K as <-. exact Hy. Qed.

(** ** Options *)
Lemma fixed_option o : exists o', fix_option (VDict o) = VDict o' /\
  (forall k, k <> s "group" -> k <> s "groups" -> vget k o' = vget k o) /\
  vget (s "groups") o' = match vget (s "group") o, vget (s "groups") o with
                         | Some g, None => Some (VList [g])
                         | _, x => x
                         end /\
  (forall names, keys_in (s "group" :: s "groups" :: names) o -> keys_in (s "groups" :: names) o').
Proof.
  unfold fix_option. destruct (vget (s "group") o) as [g|] eqn:Eg.
  - assert (Hne : s "groups" <> s "group") by (vm_compute; discriminate).
    assert (K : forall names, keys_in (s "group" :: s "groups" :: names) o -> keys_in (s "groups" :: names) (drop_key (s "group") o)).
    { intros names H k Hk. apply in_map_iff in Hk as ((k' & v) & <- & Hk). apply filter_In in Hk as [Hk Hn].
      destruct (H k') as (n & Hin & ->); [now apply (in_map fst) in Hk|]. exists n. split; [|reflexivity].
      destruct Hin as [<-|Hin]; [|exact Hin]. cbn [fst] in Hn.
      destruct (value_eqb_spec (VStr (s "group")) (VStr (s "group"))); [discriminate|congruence]. }
    destruct (vget (s "groups") o) as [gs|] eqn:Egs; eexists; (split; [reflexivity|]); (split; [|split]).
    + intros k H1 H2. now apply vget_drop.
    + rewrite vget_drop by exact Hne. exact Egs.
    + exact K.
    + intros k H1 H2. rewrite vget_snoc, vget_drop by exact H1.
      destruct (str_eqb_spec k (s "groups")); [congruence|]. now destruct (vget k o).
    + rewrite vget_snoc, vget_drop by exact Hne. rewrite Egs. now destruct (str_eqb_spec (s "groups") (s "groups")).
    + intros names H k Hk. rewrite map_app in Hk. apply in_app_or in Hk as [Hk|[<-|[]]]; [now apply K|].
      exists (s "groups"). split; [left|]; reflexivity.
  - exists o. split; [reflexivity|]. split; [reflexivity|]. split; [now destruct (vget (s "groups") o)|].
    intros names H k Hk. destruct (H k Hk) as (n & Hin & ->). exists n. split; [|reflexivity].
    destruct Hin as [<-|Hin]; [|exact Hin]. exfalso. apply in_map_iff in Hk as ((k' & v) & E & Hk). cbn [fst] in E. subst k'.
    unfold vget in Eg. rewrite (dget_None value_eqb value_eqb_spec) in Eg. apply Eg. now apply (in_map fst) in Hk.
Qed.

Lemma keys_sub names names' d : (forall n, In n names -> In n names') -> keys_in names d -> keys_in names' d.
Proof. intros H K k Hk. destruct (K k Hk) as (n & Hn & ->). eauto. Qed.
Definition subset (a b : list str) : bool := forallb (fun x => mems x b) a.
Lemma subset_ok a b : subset a b = true -> forall n, In n a -> In n b.
Proof. intros H n Hn. apply mems_In. apply (proj1 (forallb_forall _ _) H _ Hn). Qed.

(** What the validation checks of an option, without the form of its completer. *)
Definition option_like (e : env) (o : dict) : Prop :=
  has o "option_strings" /\
  parameters
    [("option_strings", filled_list_of an_option_string);
     ("metavar", text_or_null); ("help", text_or_null); ("optional_arg", bool_or_null);
     ("group", text_or_null); ("groups", nullable (list_of a_text));
     ("repeatable", inheritable_bool); ("final", bool_or_null); ("hidden", bool_or_null);
     ("nosort", bool_or_null); ("complete", nullable a_filled_list);
     ("when", nullable (a_condition e)); ("capture", nullable a_variable);
     ("long_opt_arg_sep", one_of ["space"; "equals"; "both"; "INHERIT"])] o /\
  (sets o "metavar" -> sets o "complete") /\ (says_true o "optional_arg" -> sets o "complete") /\
  ~ (says_true o "repeatable" /\ says_true o "hidden") /\ ~ (sets o "group" /\ sets o "groups").
Lemma option_checked e ps v : proper v -> check_option e ps v = Ok tt -> exists o, v = VDict o /\ option_like e o.
Proof.
  intros Hp H. apply check_option_ok in H. destruct v as [| | | | | |o]; try discriminate. exists o. split; [reflexivity|].
  assert (Hd : NoDup (map fst o)) by (apply Hp; constructor).
  unfold option_like. revert H. cbn [check_option0]. rewrite !bind_tt_iff, !if_err, !bind_tt_iff.
  rewrite (implied _ _ _ _ (sets_iff o "metavar") (sets_iff o "complete")).
  rewrite (implied _ _ _ _ (true_iff o "optional_arg") (sets_iff o "complete")).
  rewrite (excluded _ _ _ _ (true_iff o "repeatable") (true_iff o "hidden")).
  rewrite (excluded _ _ _ _ (sets_iff o "group") (sets_iff o "groups")).
  rewrite (dictionary_iff _ _ Hd) by names. rewrite (parameters_iff _ _ Hd) by names.
  unfold option_rules. cbn [map r_key fst]. rewrite !Forall_cons_iff, !Forall_nil_iff.
  cbn [r_key r_types r_check r_required fst snd].
  rewrite <- given_sep.
  rewrite <- (given_listed (fun g => check_type g [TStr]) a_text o "groups") by (intros; apply type_text).
  rewrite <- (given_checked opt_str check_variable_name a_variable o "capture") by (reflexivity || (intros; now apply check_capture_iff)).
  rewrite <- (given_checked opt_str (check_when e) (a_condition e) o "when") by (reflexivity || (intros; now apply check_when_iff)).
  pose proof (given_checked opt_list (fun x => do _ <- check_complete e (MkCtx None ps) [] x; Ok tt) _ o "complete" eq_refl
    (fun v _ _ => iff_refl _)) as G0.
  assert (G1 : if_given (vget (s "complete") o) (fun v => check_type v opt_list = Ok tt /\ no_check v = Ok tt) /\
    check_if (has_set o "complete") (fun x => do _ <- check_complete e (MkCtx None ps) [] x; Ok tt) (vget (s "complete") o) = Ok tt ->
    if_given (vget (s "complete") o) (nullable a_filled_list)).
  { intros H. apply G0 in H. intros v E. destruct (H v E) as [->|K]; [left; reflexivity|right; exact (checked_list _ _ _ K)]. }
  clear G0. rewrite !given_text_null, !given_bool_null, !given_xbool. pose proof (proj1 (given_strings o)) as G.
  intros ((K & F & R) & N & S & H). decompose [and] F. decompose [and] R. decompose [and] H. clear F R H.
  assert (true = true -> has o "option_strings") as R by assumption. specialize (R eq_refl).
  splits; try assumption; try exact I; try (apply G; tauto). apply G1. auto.
Qed.

Lemma option_imported e ps v c : proper v -> check_option e ps v = Ok tt ->
  not_null ["optional_arg"; "final"; "hidden"; "nosort"; "group"] v ->
  exists c', add_option_dict c (fix_option v) = Ok c'.
Proof.
  intros Hp Hc Hn. destruct (option_checked e ps v Hp Hc) as (o & -> & Hs & H & Hm & Ho & Hr & Hg). clear Hc.
  assert (Hd : NoDup (map fst o)) by (apply Hp; constructor).
  rewrite (parameters_iff _ _ Hd) in H by names. destruct H as [K F].
  rewrite !Forall_cons_iff, Forall_nil_iff in F. cbn [fst snd] in F.
  destruct F as (F1 & F2 & F3 & F4 & F5 & F6 & F7 & F8 & F9 & F10 & F11 & F12 & F13 & F14 & _).
  assert (Hn' : forall k, In k ["optional_arg"; "final"; "hidden"; "nosort"; "group"] -> vget (s k) o <> Some VNone).
  { intros k Hk. apply (Hn o k eq_refl Hk). }
  destruct (fixed_option o) as (o' & -> & G1 & G2 & G3). cbn [add_option_dict].
  rewrite validate_keys_ok.
  2: { apply (keys_sub (s "groups" :: map s ["option_strings"; "metavar"; "help"; "optional_arg"; "repeatable";
         "final"; "hidden"; "nosort"; "complete"; "when"; "capture"; "long_opt_arg_sep"])).
       - apply subset_ok. vm_compute. reflexivity.
       - apply G3. revert K. apply keys_sub. apply subset_ok. vm_compute. reflexivity. }
  cbn [bind].
  assert (Q : forall k dflt, mems (s k) [s "group"; s "groups"] = false -> getd (s k) dflt o' = getd (s k) dflt o).
  { intros k dflt E. unfold getd. rewrite G1; [reflexivity| |]; intros X; rewrite X in E; vm_compute in E; discriminate. }
  rewrite (Q "option_strings"), (Q "metavar"), (Q "help"), (Q "optional_arg"), (Q "repeatable"), (Q "final"), (Q "hidden"),
    (Q "complete"), (Q "nosort"), (Q "when"), (Q "capture"), (Q "long_opt_arg_sep") by (vm_compute; reflexivity).
  destruct Hs as [v Ev]. destruct (F1 v Ev) as (l & -> & Hl & Hls).
  assert (exists r, as_str_list (getd (s "option_strings") VNone o) = Ok r /\ r <> [] /\ forall x, In x r -> option_string x) as (r & -> & Hr1 & Hr2).
  { unfold getd. rewrite Ev. cbn [as_str_list]. destruct (as_strs_texts l) as (r & E & ->).
    - eapply Forall_impl; [|exact Hls]. intros x (y & -> & _). exists y. reflexivity.
    - exists r. split; [exact E|]. split; [intros ->; now apply Hl|]. intros x Hx. rewrite Forall_forall in Hls.
      destruct (Hls (VStr x)) as (y & Ey & Hy); [now apply in_map|]. injection Ey as <-. exact Hy. }
  destruct (read_text o "metavar" F2) as (mv & -> & Hmv). destruct (read_text o "help" F3) as (hp & -> & _).
  destruct (read_bool o "optional_arg" F4) as (oa & -> & Hoa); [apply Hn'; cbn; tauto|].
  assert (exists g, as_opt_str_list (getd (s "groups") VNone o') = Ok g) as (g & ->).
  { unfold getd. rewrite G2. destruct (vget (s "group") o) as [g|] eqn:Eg.
    - destruct (F5 g eq_refl) as [->|[x ->]]; [exfalso; apply (Hn' "group"); [cbn; tauto|exact Eg]|].
      destruct (vget (s "groups") o) as [gs|] eqn:Egs; [|eexists; reflexivity].
      destruct (F6 gs eq_refl) as [->|(l' & -> & Hl')]; [eexists; reflexivity|].
      destruct (as_strs_texts _ Hl') as (r' & E & _). exists (Some r'). cbn. rewrite E. reflexivity.
    - destruct (vget (s "groups") o) as [gs|] eqn:Egs; [|eexists; reflexivity].
      destruct (F6 gs eq_refl) as [->|(l' & -> & Hl')]; [eexists; reflexivity|].
      destruct (as_strs_texts _ Hl') as (r' & E & _). exists (Some r'). cbn. rewrite E. reflexivity. }
  destruct (read_xbool o "repeatable" F7) as (rp & -> & Hrp).
  destruct (read_bool o "final" F8) as (fi & -> & _); [apply Hn'; cbn; tauto|].
  destruct (read_bool o "hidden" F9) as (hi & -> & Hhi); [apply Hn'; cbn; tauto|].
  destruct (read_bool o "nosort" F10) as (no & -> & _); [apply Hn'; cbn; tauto|].
  destruct (read_list o "complete" a_filled_list (fun v Hv => Hv) F11) as (co & -> & Hco).
  destruct (read_text o "when" (text_given _ _ (condition_text e) F12)) as (wh & -> & _).
  destruct (read_text o "capture" (text_given _ _ variable_text F13)) as (ca & -> & Hca).
  destruct (read_sep o "long_opt_arg_sep" F14) as (se & ->).
  cbn [bind]. unfold add_option.
  match goal with |- context [mk_option ?x] => assert (mk_option x = Ok x) as -> end; [|cbn [bind]; eauto].
  apply mk_option_iff. split; [reflexivity|]. unfold valid_option, takes_argument. cbn.
  split; [exact Hr1|]. split; [exact Hr2|]. split; [intros x Hx; exact (capture_name o x F13 (Hca x Hx))|].
  assert (Hset : sets o "complete" -> exists x l0, co = Some (x :: l0)) by exact Hco.
  split; [|split].
  - intros a m E. apply Hset, Hm. exists (VStr (a :: m)). split; [now apply Hmv|discriminate].
  - intros E. apply Hset, Ho, Hoa, E.
  - intros [E1 E2]. apply Hr. auto.
Qed.

(** ** Positionals *)
Lemma positional_imported e ps v c : proper v -> check_positional e ps v = Ok tt ->
  not_null ["repeatable"; "nosort"] v -> exists c', add_positional_dict c v = Ok c'.
Proof.
  intros Hp Hc Hn. destruct v as [| | | | | |o]; try discriminate. assert (Hd : NoDup (map fst o)) by (apply Hp; constructor).
  apply (pos_dict_iff e ps o Hd) in Hc. pose proof (pos_dict_plain e ps o Hc) as (_ & _ & F6).
  destruct Hc as (K & (F1 & Hs) & F2 & F3 & F4 & F5 & _ & F7 & F8).
  assert (Hn' : forall k, In k ["repeatable"; "nosort"] -> vget (s k) o <> Some VNone).
  { intros k Hk. apply (Hn o k eq_refl Hk). }
  cbn [add_positional_dict]. rewrite validate_keys_ok.
  2: { revert K. apply keys_sub. apply subset_ok. vm_compute. reflexivity. }
  cbn [bind]. destruct Hs as [v Ev]. destruct (F1 v Ev) as (z & Hz & Hz1).
  assert (as_int (getd (s "number") VNone o) = Ok z) as ->.
  { unfold getd. rewrite Ev. destruct Hz as [->|([|] & -> & ->)]; reflexivity. }
  destruct (read_text o "metavar" F2) as (mv & -> & _). destruct (read_text o "help" F3) as (hp & -> & _).
  destruct (read_bool o "repeatable" F4) as (rp & -> & _); [apply Hn'; cbn; tauto|].
  destruct (read_bool o "nosort" F5) as (no & -> & _); [apply Hn'; cbn; tauto|].
  destruct (read_list o "complete" a_filled_list (fun v Hv => Hv) F6) as (co & -> & _).
  destruct (read_text o "when" (text_given _ _ (condition_text e) F7)) as (wh & -> & _).
  destruct (read_text o "capture" (text_given _ _ variable_text F8)) as (ca & -> & Hca).
  cbn [bind].
  destruct (mk_positional z mv hp co no rp wh ca) as [x|p] eqn:E; [|cbn [bind]; eauto].
  exfalso. assert (exists p, mk_positional z mv hp co no rp wh ca = Ok p) as (p & E'); [|congruence].
  eexists. apply mk_positional_iff. split; [exact Hz1|]. split; [|reflexivity].
  intros y Hy. exact (capture_name o y F8 (Hca y Hy)).
Qed.

(** ** Definitions *)
Lemma fold_ok {A B} (f : A -> B -> res A) l : (forall x a, In x l -> exists a', f a x = Ok a') ->
  forall a, exists a', fold_res f l a = Ok a'.
Proof.
  induction l as [|x l IH]; intros H a; cbn [fold_res]; [eauto|].
  destruct (H x a (or_introl eq_refl)) as (a' & ->). cbn [bind]. apply IH. intros y b Hy. apply H. right. exact Hy.
Qed.

(** What the validation checks of a definition. *)
Definition definition_like (e : env) (d : dict) : Prop :=
  parameters
    [("prog", a_program); ("help", text_or_null); ("aliases", nullable (list_of a_word)); ("wraps", nullable a_word);
     ("abbreviate_commands", inheritable_bool); ("abbreviate_options", inheritable_bool); ("inherit_options", inheritable_bool);
     ("options", nullable (list_of (fun v => check_option e (getd (s "positionals") VNone d) v = Ok tt)));
     ("positionals", nullable (list_of (fun v => check_positional e (getd (s "positionals") VNone d) v = Ok tt)))] d.
Lemma definition_checked e d : proper (VDict d) -> check_definition e d = Ok tt -> definition_like e d.
Proof.
  intros Hp. assert (Hd : NoDup (map fst d)) by (apply Hp; constructor).
  unfold check_definition, definition_like. rewrite !bind_tt_iff.
  rewrite (dictionary_iff _ _ Hd) by names. rewrite (parameters_iff _ _ Hd) by names.
  unfold definition_rules. cbn [map r_key fst]. rewrite !Forall_cons_iff, !Forall_nil_iff.
  cbn [r_key r_types r_check r_required fst snd].
  rewrite <- (given_listed _ _ d "positionals" (fun _ _ _ _ => iff_refl _)).
  rewrite <- (given_listed _ _ d "options" (fun _ _ _ _ => iff_refl _)).
  rewrite <- (given_listed check_extension a_word d "aliases") by (intros; apply word_iff).
  rewrite !given_xbool.
  pose proof (given_prog d) as GP. pose proof (given_wraps d) as GW.
  set (PR := check_if true _ (vget (s "prog") d)) in *.
  intros ((K & F & R) & P & A & W & O & S). decompose [and] F. decompose [and] R. clear F R.
  assert (true = true -> has d "prog") as R by assumption. specialize (R eq_refl).
  pose proof (proj1 GP) as GP1. assert (GP2 : if_given (vget (s "prog") d) a_program /\ has d "prog") by (apply GP1; auto).
  specialize (GW GP2). pose proof (proj1 GW) as GW1.
  assert (GW2 : if_given (vget (s "wraps") d) (nullable a_word) /\
    (sets d "wraps" -> forall x, vget (s "prog") d = Some (VStr x) -> solid x)) by (apply GW1; auto).
  destruct GP2, GW2. rewrite given_text_null in *. splits; assumption || exact I.
Qed.
Lemma definition_imported e d prog : proper (VDict d) -> check_definition e d = Ok tt -> without_null (VDict d) ->
  exists d' c, fix_commandline (VDict d) = VDict d' /\ vget (s "prog") d' = vget (s "prog") d /\
    dictionary_to_commandline d' prog = Ok c.
Proof.
  intros Hp H (N1 & N2 & N3). apply definition_checked in H; [|exact Hp]. unfold definition_like in H. assert (Hd : NoDup (map fst d)) by (apply Hp; constructor).
  rewrite (parameters_iff _ _ Hd) in H by names. destruct H as [K F].
  rewrite !Forall_cons_iff, Forall_nil_iff in F. cbn [fst snd] in F.
  destruct F as (F1 & F2 & F3 & F4 & F5 & F6 & F7 & F8 & F9 & _).
  assert (Hin : forall k l w, vget (s k) d = Some (VList l) -> In w l -> proper w).
  { intros k l w E Hwl. apply (proper_part _ _ Hp). apply (part_trans _ (VList l)); [now apply part_vget in E|now apply part_In]. }
  assert (exists d' os, fix_commandline (VDict d) = VDict d' /\
    (forall k, k <> s "options" -> vget k d' = vget k d) /\ getd (s "options") (VList []) d' = VList (map fix_option os) /\
    (forall w, In w os -> vget (s "options") d = Some (VList os)) /\
    keys_in (map (fun a => s a) ["prog"; "help"; "aliases"; "wraps"; "abbreviate_commands"; "abbreviate_options"; "inherit_options"; "options"; "positionals"]) d')
    as (d' & os & Ed & Q & Eo & Hos & K').
  { unfold fix_commandline. destruct (vget (s "options") d) as [v|] eqn:E.
    - destruct (F8 v eq_refl) as [->|(os & -> & _)]; [exfalso; apply (N1 d "options" eq_refl); [cbn; tauto|exact E]|].
      eexists _, os. split; [reflexivity|]. split; [|split; [|split]].
      + intros k Hk. unfold vget. apply (dget_dset_other value_eqb value_eqb_spec). congruence.
      + unfold getd, vget. rewrite (dget_dset_same value_eqb value_eqb_spec). reflexivity.
      + reflexivity.
      + intros k Hk. apply (dset_In_keys value_eqb value_eqb_spec) in Hk as [->|Hk]; [|exact (K k Hk)].
        exists (s "options"). split; [apply (in_map s); cbn; tauto|reflexivity].
    - exists d, []. split; [reflexivity|]. split; [reflexivity|]. split; [unfold getd; rewrite E; reflexivity|].
      split; [intros w []|exact K]. }
  exists d'. rewrite Ed.
  assert (Q' : forall k dflt, str_eqb (s k) (s "options") = false -> getd (s k) dflt d' = getd (s k) dflt d).
  { intros k dflt E. unfold getd. rewrite Q; [reflexivity|]. intros X. rewrite X in E. vm_compute in E. discriminate. }
  assert (exists pl, getd (s "positionals") (VList []) d = VList pl /\ forall w, In w pl -> vget (s "positionals") d = Some (VList pl))
    as (pl & Ep & Hpl).
  { unfold getd. destruct (vget (s "positionals") d) as [v|] eqn:E; [|exists []; split; [reflexivity|intros w []]].
    destruct (F9 v eq_refl) as [->|(l & -> & _)]; [exfalso; apply (N1 d "positionals" eq_refl); [cbn; tauto|exact E]|].
    exists l. auto. }
  unfold dictionary_to_commandline. rewrite validate_keys_ok.
  2: { revert K'. apply keys_sub. apply subset_ok. vm_compute. reflexivity. }
  cbn [bind]. rewrite Eo, (Q' "positionals"), (Q' "help"), (Q' "aliases"), (Q' "wraps"), (Q' "abbreviate_commands"),
    (Q' "abbreviate_options"), (Q' "inherit_options") by (vm_compute; reflexivity). rewrite Ep.
  destruct (read_text d "help" F2) as (hp & -> & _).
  assert (exists al, as_opt_str_list (getd (s "aliases") (VList []) d) = Ok al /\
    forall a, In a (match al with Some l => l | None => [] end) -> solid a) as (al & -> & Hal).
  { unfold getd. destruct (vget (s "aliases") d) as [v|] eqn:E; [|eexists; split; [reflexivity|intros a []]].
    destruct (F3 v eq_refl) as [->|(l & -> & Hl)]; [eexists; split; [reflexivity|intros a []]|].
    destruct (as_strs_texts l) as (r & Er & ->); [eapply Forall_impl; [|exact Hl]; intros x Hx; now apply word_text|].
    exists (Some r). split; [cbn; rewrite Er; reflexivity|]. intros a Ha. rewrite Forall_forall in Hl.
    destruct (Hl (VStr a)) as (y & Ey & _ & Hy); [now apply in_map|]. injection Ey as <-. exact Hy. }
  destruct (read_text d "wraps" (text_given _ _ word_text F4)) as (wr & -> & Hwr).
  destruct (read_xbool d "abbreviate_commands" F5) as (x1 & -> & _).
  destruct (read_xbool d "abbreviate_options" F6) as (x2 & -> & _).
  destruct (read_xbool d "inherit_options" F7) as (x3 & -> & _).
  cbn [bind].
  match goal with |- context [mk_commandline prog hp ?a wr x1 x2 x3] =>
    assert (mk_commandline prog hp a wr x1 x2 x3 = Ok (Cmd prog hp a wr x1 x2 x3 [] [] None)) as -> end.
  { apply mk_commandline_iff. split; [exact Hal|]. split; [|reflexivity]. intros w E.
    destruct (F4 _ (Hwr w E)) as [X|(y & X & Hy1 & Hy2)]; [discriminate|]. injection X as <-. split; [exact Hy2|exact Hy1]. }
  cbn [bind].
  match goal with |- context [fold_res add_option_dict ?l ?c] =>
    destruct (fold_ok add_option_dict l) with (a := c) as (c1 & ->) end.
  { intros x a Hx. apply in_map_iff in Hx as (w & <- & Hx). pose proof (Hos w Hx) as E.
    destruct (F8 _ E) as [X|(l & X & Hl)]; [discriminate|]. injection X as <-. rewrite Forall_forall in Hl.
    apply (option_imported e (getd (s "positionals") VNone d)); [exact (Hin _ _ _ E Hx)|exact (Hl w Hx)|].
    apply N2. exists d, os. auto. }
  cbn [bind].
  destruct (fold_ok add_positional_dict pl) with (a := c1) as (c2 & ->).
  { intros x a Hx. pose proof (Hpl x Hx) as E.
    destruct (F9 _ E) as [X|(l & X & Hl)]; [discriminate|]. injection X as <-. rewrite Forall_forall in Hl.
    apply (positional_imported e (getd (s "positionals") VNone d)); [exact (Hin _ _ _ E Hx)|exact (Hl x Hx)|].
    apply N3. exists d, pl. auto. }
  exists c2. split; [reflexivity|]. split; [|reflexivity]. apply Q. vm_compute. discriminate.
Qed.

(** ** Lists of definitions *)
Lemma path_words v : names_program v -> plain_prog v -> doc_path (fix_commandline v) = words v.
Proof.
  intros (d & p & -> & Ep & Hv) Hp. unfold words. rewrite Ep.
  pose proof (fun ch => Hp d p ch eq_refl Ep) as Hs. rewrite <- (validate_prog_split p Hs Hv).
  unfold fix_commandline, doc_path. destruct (vget (s "options") d) as [[| | | | |l|]|]; try (rewrite Ep; reflexivity).
  unfold vget. rewrite (dget_dset_other value_eqb value_eqb_spec) by (vm_compute; discriminate).
  fold (vget (s "prog") d). rewrite Ep. reflexivity.
Qed.

Lemma written_imported e docs0 : let docs := replace_defines_in_documents docs0 in
  (forall v, In v docs -> proper v /\ plain_prog v /\ without_null v /\ exists d, v = VDict d /\ check_definition e d = Ok tt) ->
  Forall names_program docs -> NoDup (map words docs) -> parents_first docs -> one_program docs ->
  exists c, dictionaries_to_commandline docs0 = Ok c.
Proof.
  intros docs H Hn Hd Hp Ho. rewrite Forall_forall in Hn.
  assert (E : prepare docs0 = map fix_commandline docs) by reflexivity.
  assert (P : forall l, (forall v, In v l -> In v docs) -> map doc_path (map fix_commandline l) = map words l).
  { intros l Hl. rewrite map_map. apply map_ext_in. intros v Hv. apply path_words; [apply Hn, Hl, Hv|apply H, Hl, Hv]. }
  apply dictionaries_ok. rewrite E. split; [|split; [|split]].
  - intros v' Hv'. apply in_map_iff in Hv' as (v & <- & Hv).
    destruct (H v Hv) as (H1 & H2 & H3 & d & -> & H4). destruct (Hn _ Hv) as (d0 & p & E0 & Ep & Hvp). injection E0 as <-.
    destruct (definition_imported e d (last (split_ws p) []) H1 H4 H3) as (d' & c & Ed & Epr & Ec).
    exists c, d', p. rewrite Epr. auto.
  - rewrite P by auto. exact Hd.
  - intros b v a Eb. apply map_eq_app in Eb as (b0 & r & E0 & <- & Er).
    apply map_eq_cons in Er as (v0 & a0 & -> & <- & <-).
    assert (In v0 docs) as Hv0 by (rewrite E0; apply in_elt).
    rewrite path_words by (apply Hn, Hv0 || apply H, Hv0). rewrite P.
    + exact (Hp b0 v0 a0 E0).
    + intros x Hx. rewrite E0. apply in_or_app. left. exact Hx.
  - destruct Ho as (v & Hv & Hl & Hu). exists (fix_commandline v).
    assert (W : forall x, In x docs -> doc_path (fix_commandline x) = words x) by (intros x Hx; apply path_words; [apply Hn, Hx|apply H, Hx]).
    split; [now apply in_map|]. rewrite (W v Hv). split; [exact Hl|].
    intros v' Hv'. apply in_map_iff in Hv' as (v0 & <- & Hv0). rewrite (W v0 Hv0). intros Hl0. now rewrite (Hu v0 Hv0 Hl0).
Qed.
