(** * Proofs about the forms that validation accepts (C84). *)
From Verif Require Import Base Dict Value StrUtils StrUtilsProofs Cli DictSource When SchemeValidator SpecScheme
  SchemeNested SchemeProofs SpecCli CliMore SpecValid.
Local Open Scope string_scope.
Local Open Scope list_scope.

(** ** Dictionaries *)
Definition if_given (o : option value) (P : value -> Prop) : Prop := forall v, o = Some v -> P v.
Definition same_names (allowed : list (String.string * (value -> Prop))) (names : list str) : Prop :=
  map (fun a => s (fst a)) allowed = names.

Lemma vget_In k d v : vget k d = Some v -> In (VStr k, v) d.
Proof. apply (dget_In value_eqb value_eqb_spec). Qed.
Lemma In_vget k d v : NoDup (map fst d) -> In (VStr k, v) d -> vget k d = Some v.
Proof. apply (In_dget value_eqb value_eqb_spec). Qed.

Fixpoint nodups (l : list str) : bool :=
  match l with [] => true | x :: l' => negb (mems x l') && nodups l' end.
Lemma nodups_ok l : nodups l = true -> NoDup l.
Proof.
  induction l as [|x l IH]; cbn [nodups]; [constructor|]. intros H. apply andb_true_iff in H as [H1 H2].
  constructor; [|auto]. intros Hx. apply mems_In in Hx. rewrite Hx in H1. discriminate.
Qed.
Lemma NoDup_same {A} (f : A -> str) l x y : NoDup (map f l) -> In x l -> In y l -> f x = f y -> x = y.
Proof.
  induction l as [|a l IH]; [intros _ []|]. cbn [map]. intros H Hx Hy E. inversion H as [|? ? Hn Hd]; subst.
  destruct Hx as [->|Hx], Hy as [->|Hy]; [reflexivity| | |auto].
  - exfalso. apply Hn. rewrite E. now apply in_map.
  - exfalso. apply Hn. rewrite <- E. now apply in_map.
Qed.

(** The keys of [d] are among [names]. *)
Definition keys_in (names : list str) (d : dict) : Prop :=
  forall k, In k (map fst d) -> exists n, In n names /\ k = VStr n.

Lemma parameters_iff allowed d : NoDup (map fst d) -> NoDup (map (fun a => s (fst a)) allowed) ->
  parameters allowed d <->
  keys_in (map (fun a => s (fst a)) allowed) d /\
  Forall (fun a => if_given (vget (s (fst a)) d) (snd a)) allowed.
Proof.
  intros Hd Ha. split.
  - intros H. split.
    + intros k Hk. apply in_map_iff in Hk as ((k' & v) & <- & Hk). destruct (H k' v Hk) as (n & P & Hn & -> & _).
      exists (s n). split; [|reflexivity]. apply in_map_iff. exists (n, P). auto.
    + apply Forall_forall. intros [n P] Hn v Hv. cbn [fst snd] in *. apply vget_In in Hv.
      destruct (H _ _ Hv) as (n' & P' & Hn' & E & Hp). injection E as E.
      assert (K : (n, P) = (n', P')) by (now apply (NoDup_same (fun a => s (fst a)) allowed)).
      injection K as _ <-. exact Hp.
  - intros [H1 H2] k v Hk. destruct (H1 k) as (n & Hn & ->); [now apply (in_map fst) in Hk|].
    apply in_map_iff in Hn as ((n' & P) & <- & Hn). exists n', P. split; [exact Hn|]. split; [reflexivity|].
    rewrite Forall_forall in H2. apply (H2 _ Hn). cbn [fst]. now apply In_vget.
Qed.

Lemma items_iff rules d : NoDup (map fst d) -> NoDup (map (fun r => s (r_key r)) rules) ->
  check_items rules d = Ok tt <->
  keys_in (map (fun r => s (r_key r)) rules) d /\
  Forall (fun r => if_given (vget (s (r_key r)) d)
    (fun v => check_type v (r_types r) = Ok tt /\ r_check r v = Ok tt)) rules.
Proof.
  intros Hd Hr.
  assert (K : check_items rules d = Ok tt <-> forall k v, In (k, v) d -> exists r, In r rules /\
    k = VStr (s (r_key r)) /\ check_type v (r_types r) = Ok tt /\ r_check r v = Ok tt).
  { clear Hd. induction d as [|[k v] d IH]; cbn [check_items]; [split; [intros _ ? ? []|reflexivity]|].
    split.
    - destruct (find_rule rules k) as [r|] eqn:F; [|discriminate]. intros H.
      apply bind_ok' in H as ([] & H1 & H). apply bind_ok' in H as ([] & H2 & H).
      intros k' v' [E|Hin]; [injection E as <- <-|apply IH; assumption].
      exists r. destruct k; try discriminate. apply find_some in F as [F1 F2]. apply str_eqb_eq in F2.
      rewrite F2. auto.
    - intros H. destruct (H k v (or_introl eq_refl)) as (r & Hin & -> & H1 & H2).
      assert (F : find_rule rules (VStr (s (r_key r))) = Some r).
      { cbn [find_rule]. destruct (find _ rules) as [r'|] eqn:F.
        - apply find_some in F as [F1 F2]. apply str_eqb_eq in F2. f_equal.
          now apply (NoDup_same (fun r => s (r_key r)) rules).
        - apply find_none with (x := r) in F; [|exact Hin]. now rewrite str_eqb_refl in F. }
      rewrite F, H1. cbn [bind]. rewrite H2. cbn [bind]. apply IH. intros k' v' Hin'. apply H. now right. }
  rewrite K. split.
  - intros H. split.
    + intros k Hk. apply in_map_iff in Hk as ((k' & v) & <- & Hk). destruct (H k' v Hk) as (r & Hn & -> & _).
      exists (s (r_key r)). split; [|reflexivity]. apply in_map_iff. exists r. auto.
    + apply Forall_forall. intros r Hn v Hv. apply vget_In in Hv.
      destruct (H _ _ Hv) as (r' & Hn' & E & Hp). injection E as E.
      assert (r = r') as -> by (now apply (NoDup_same (fun r => s (r_key r)) rules)). exact Hp.
  - intros [H1 H2] k v Hk. destruct (H1 k) as (n & Hn & ->); [now apply (in_map fst) in Hk|].
    apply in_map_iff in Hn as (r & <- & Hn). exists r. split; [exact Hn|]. split; [reflexivity|].
    rewrite Forall_forall in H2. apply (H2 _ Hn). now apply In_vget.
Qed.

Lemma has_key_iff d k : has_key d k = true <-> has d k.
Proof.
  unfold has_key, dmem, has, vget. destruct (dget value_eqb (VStr (s k)) d); split; eauto; try discriminate.
  intros [v H]; discriminate.
Qed.
Lemma dictionary_iff rules d : NoDup (map fst d) -> NoDup (map (fun r => s (r_key r)) rules) ->
  check_dictionary d rules = Ok tt <->
  keys_in (map (fun r => s (r_key r)) rules) d /\
  Forall (fun r => if_given (vget (s (r_key r)) d)
    (fun v => check_type v (r_types r) = Ok tt /\ r_check r v = Ok tt)) rules /\
  Forall (fun r => r_required r = true -> has d (r_key r)) rules.
Proof.
  intros Hd Hr. unfold check_dictionary. rewrite bind_ok. split.
  - intros ([] & H & K). apply (items_iff rules d Hd Hr) in H as [H1 H2]. split; [exact H1|]. split; [exact H2|].
    destruct (forallb _ rules) eqn:F; [|discriminate]. rewrite forallb_forall in F.
    apply Forall_forall. intros r Hin E. specialize (F r Hin). rewrite E in F. cbn [negb orb] in F.
    now apply has_key_iff.
  - intros (H1 & H2 & H3). exists tt. split; [apply items_iff; auto|].
    rewrite Forall_forall in H3.
    assert (F : forallb (fun r => negb (r_required r) || dmem value_eqb (VStr (s (r_key r))) d) rules = true).
    { apply forallb_forall. intros r Hin. destruct (r_required r) eqn:E; [|reflexivity].
      apply has_key_iff. now apply H3. }
    rewrite F. reflexivity.
Qed.

(** ** Kinds *)
Lemma type_text v : check_type v [TStr] = Ok tt <-> a_text v.
Proof. unfold a_text. destruct v; cbn; split; try discriminate; eauto; intros [? H]; discriminate. Qed.
Lemma type_text_null v : check_type v [TStr; TNone] = Ok tt <-> nullable a_text v.
Proof.
  unfold nullable, a_text.
  destruct v; cbn; split; try discriminate; eauto; intros [H|[? H]]; discriminate.
Qed.
Lemma type_bool v : check_type v [TBool] = Ok tt <-> a_bool v.
Proof. unfold a_bool. destruct v; cbn; split; try discriminate; eauto; intros [? H]; discriminate. Qed.
Lemma type_bool_null v : check_type v [TBool; TNone] = Ok tt <-> nullable a_bool v.
Proof.
  unfold nullable, a_bool.
  destruct v; cbn; split; try discriminate; eauto; intros [H|[? H]]; discriminate.
Qed.
Lemma type_list v : check_type v [TList] = Ok tt <-> a_list v.
Proof. unfold a_list. destruct v; cbn; split; try discriminate; eauto; intros [? H]; discriminate. Qed.
Lemma type_list_null v : check_type v [TList; TNone] = Ok tt <-> nullable a_list v.
Proof.
  unfold nullable, a_list.
  destruct v; cbn; split; try discriminate; eauto; intros [H|[? H]]; discriminate.
Qed.
Lemma type_int v : check_type v [TInt] = Ok tt <-> an_integer v.
Proof.
  unfold an_integer. destruct v; cbn; split; try discriminate; eauto; intros [[? H]|[? H]]; discriminate.
Qed.
Lemma type_number v : check_type v [TInt; TFloat] = Ok tt <-> a_number v.
Proof.
  unfold a_number, an_integer.
  destruct v; cbn; split; try discriminate; eauto; intros [[[? H]|[? H]]|[? H]]; discriminate.
Qed.
Lemma type_text_int v : check_type v str_or_int = Ok tt <-> text_or_integer v.
Proof.
  unfold text_or_integer, a_text, an_integer.
  destruct v; cbn; split; try discriminate; eauto; intros [[? H]|[[? H]|[? H]]]; discriminate.
Qed.
Lemma xbool_iff v : check_type v xbool_ty = Ok tt /\ check_extended_bool v = Ok tt <-> inheritable_bool v.
Proof.
  unfold inheritable_bool, a_bool. split.
  - intros [H1 H2]. destruct v; try discriminate; [eauto|]. cbn [check_extended_bool] in H2.
    destruct (str_eqb_spec x INHERIT) as [->|]; [right; reflexivity|discriminate].
  - intros [[b ->]| ->]; split; reflexivity.
Qed.

Lemma non_blank x : is_empty_or_whitespace x = false <-> filled x.
Proof. apply not_blank_iff. Qed.
Lemma solid_iff x : contains_space x = false <-> solid x.
Proof.
  unfold contains_space, solid. rewrite !orb_false_iff. split.
  - intros ((H1 & H2) & H3). repeat split; intros H; apply memc_In in H; congruence.
  - intros (H1 & H2 & H3). repeat split; apply not_true_iff_false; rewrite memc_In; assumption.
Qed.
Lemma filled_iff v : a_text v /\ check_non_empty_string v = Ok tt <-> a_filled_text v.
Proof.
  unfold a_text, a_filled_text. split.
  - intros [[x ->] H]. exists x. split; [reflexivity|]. apply non_blank. cbn [check_non_empty_string on_str] in H.
    destruct (is_empty_or_whitespace x); [discriminate|reflexivity].
  - intros (x & -> & H). split; [eauto|]. apply non_blank in H. cbn [check_non_empty_string on_str]. now rewrite H.
Qed.
Lemma word_iff v : check_extension v = Ok tt <-> a_word v.
Proof.
  unfold check_extension, a_word. rewrite bind_ok. split.
  - intros ([] & H1 & H). apply bind_ok' in H as ([] & H2 & H3). apply type_text in H1.
    destruct (proj1 (filled_iff v) (conj H1 H2)) as (x & -> & Hf). exists x. split; [reflexivity|]. split; [exact Hf|].
    apply solid_iff. cbn [check_no_spaces on_str] in H3. destruct (contains_space x); [discriminate|reflexivity].
  - intros (x & -> & Hf & Hs). exists tt. split; [reflexivity|]. rewrite bind_ok. exists tt.
    split; [apply (proj2 (filled_iff (VStr x))); exists x; auto|].
    apply solid_iff in Hs. cbn [check_no_spaces on_str]. now rewrite Hs.
Qed.
Lemma char_iff v : a_text v /\ check_char v = Ok tt <-> a_character v.
Proof.
  unfold a_text, a_character. split.
  - intros [[x ->] H]. cbn [check_char on_str] in H. destruct x as [|ch [|]]; try discriminate. eauto.
  - intros (ch & ->). split; [eauto|reflexivity].
Qed.
Lemma regex_iff e v : a_text v /\ check_regex e v = Ok tt <-> a_regex e v.
Proof.
  unfold a_text, a_regex. split.
  - intros [[x ->] H]. exists x. split; [reflexivity|]. cbn [check_regex on_str] in H.
    destruct (valid_ere e x); [reflexivity|discriminate].
  - intros (x & -> & H). split; [eauto|]. cbn [check_regex on_str]. now rewrite H.
Qed.
Lemma glob_iff e v : check_glob e v = Ok tt <-> a_glob e v.
Proof.
  unfold check_glob, a_glob. rewrite bind_ok. split.
  - intros ([] & H1 & H). apply bind_ok' in H as ([] & H2 & H3). apply type_text in H1.
    destruct (proj1 (filled_iff v) (conj H1 H2)) as (x & -> & Hf). exists x. split; [reflexivity|]. split; [exact Hf|].
    destruct (glob_check e x) as [[]|[]]; try discriminate; reflexivity.
  - intros (x & -> & Hf & Hg). exists tt. split; [reflexivity|]. rewrite bind_ok. exists tt.
    split; [apply (proj2 (filled_iff (VStr x))); exists x; auto|]. rewrite Hg. reflexivity.
Qed.
Lemma variable_iff v : a_text v /\ check_variable_name v = Ok tt <-> a_variable v.
Proof.
  unfold a_text, a_variable. split.
  - intros [[x ->] H]. exists x. split; [reflexivity|]. apply variable_name_iff. cbn [check_variable_name on_str] in H.
    destruct (is_valid_variable_name x); [reflexivity|discriminate].
  - intros (x & -> & H). split; [eauto|]. apply variable_name_iff in H. cbn [check_variable_name on_str]. now rewrite H.
Qed.
Lemma option_string_iff v : check_option_string v = Ok tt <-> an_option_string v.
Proof.
  unfold an_option_string. split.
  - destruct v; try discriminate. cbn [check_option_string]. destruct (is_valid_option_string x) eqn:E; [|discriminate].
    intros _. exists x. split; [reflexivity|]. now apply valid_option_string_iff.
  - intros (x & -> & H). cbn [check_option_string]. apply valid_option_string_iff in H. now rewrite H.
Qed.
