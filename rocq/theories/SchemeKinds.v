(** * Proofs about the forms that validation accepts (C84): the completers. *)
From Verif Require Import Base Dict Value StrUtils StrUtilsProofs Cli DictSource When SchemeValidator SpecScheme
  SchemeNested SchemeProofs SpecCli CliMore SpecValid SchemeForms.
Local Open Scope string_scope.
Local Open Scope list_scope.

Definition proper_dict (d : dict) : Prop := NoDup (map fst d).
Definition proper_args (args : list value) : Prop := forall d, In (VDict d) args -> proper_dict d.

Lemma given_iff o P Q : (forall v, P v <-> Q v) -> if_given o P <-> if_given o Q.
Proof. intros H. unfold if_given. split; intros K v E; apply H, K, E. Qed.
Lemma given_and o P Q : if_given o P /\ if_given o Q <-> if_given o (fun v => P v /\ Q v).
Proof.
  unfold if_given. split; [intros [H K] v E; split; auto|]. intros H. split; intros v E; apply (H v E).
Qed.
Lemma given_filled o :
  if_given o (fun v => check_type v [TStr] = Ok tt /\ check_non_empty_string v = Ok tt) <-> if_given o a_filled_text.
Proof. apply given_iff. intros v. rewrite type_text. apply filled_iff. Qed.
Lemma given_char o :
  if_given o (fun v => check_type v [TStr] = Ok tt /\ check_char v = Ok tt) <-> if_given o a_character.
Proof. apply given_iff. intros v. rewrite type_text. apply char_iff. Qed.
Lemma no_check_ok v (P : Prop) : P /\ no_check v = Ok tt <-> P.
Proof. unfold no_check. split; [intros [H _]; exact H|auto]. Qed.
Lemma given_bool o :
  if_given o (fun v => check_type v [TBool] = Ok tt /\ no_check v = Ok tt) <-> if_given o a_bool.
Proof. apply given_iff. intros v. rewrite no_check_ok. apply type_bool. Qed.
Lemma bind_tt_iff (a b : res unit) : (do _ <- a; b) = Ok tt <-> a = Ok tt /\ b = Ok tt.
Proof. rewrite bind_ok. split; [intros ([] & H & K); auto|intros [H K]; eauto]. Qed.

Lemma options_iff allowed ok args (R : dict -> res unit) :
  R [] = Ok tt -> (forall d, args = [VDict d] -> (R d = Ok tt <-> parameters allowed d /\ ok d)) ->
  (do d <- opt_dict args; R d) = Ok tt <-> options allowed ok args.
Proof.
  intros H0 H. unfold options. destruct args as [|v args].
  - cbn [opt_dict bind]. split; auto.
  - split.
    + intros K. right. destruct v; try discriminate. destruct args; [|discriminate].
      cbn [opt_dict bind] in K. exists d. split; [reflexivity|]. now apply H.
    + intros [K|(d & E & K)]; [discriminate|]. rewrite E. cbn [opt_dict bind]. now apply H.
Qed.

Ltac names := apply nodups_ok; vm_compute; reflexivity.
Ltac open_dictionary Hd :=
  unfold proper_dict in Hd; rewrite (dictionary_iff _ _ Hd) by names; rewrite (parameters_iff _ _ Hd) by names;
  cbn [map r_key r_types r_check r_required fst snd app]; rewrite ?Forall_cons_iff, ?Forall_nil_iff;
  cbn [map r_key r_types r_check r_required fst snd];
  rewrite ?given_filled, ?given_char, ?given_bool.

(** ** Completers without nested completers *)

Lemma void_iff args : check_void args = Ok tt <-> args = [].
Proof. destruct args; cbn; split; congruence. Qed.

Lemma last_in_iff tr names : last_in tr (map s names) = true <-> directly_in tr names.
Proof.
  unfold last_in, directly_in. destruct tr as [|t tr] using rev_ind.
  - cbn [rev]. split; [discriminate|]. intros (a & n & _ & H). destruct a; discriminate.
  - rewrite rev_app_distr. cbn [rev app]. rewrite mems_In, in_map_iff. split.
    + intros (n & <- & H). eauto.
    + intros (a & n & H & E). apply app_inj_tail in E as [_ ->]. eauto.
Qed.
Lemma none_iff tr args : check_none tr args = Ok tt <->
  args = [] /\ ~ directly_in tr ["combine"; "list"; "prefix"].
Proof.
  unfold check_none. rewrite bind_tt_iff, void_iff. rewrite <- last_in_iff.
  change (map s ["combine"; "list"; "prefix"]) with [s "combine"; s "list"; s "prefix"].
  destruct (last_in _ _); split; intros [H K]; split; auto; try discriminate. now destruct K.
Qed.

Lemma choices_iff args : check_choices args = Ok tt <->
  exists x, args = [x] /\ (list_of text_or_integer x \/ table text_or_integer text_or_integer x).
Proof.
  unfold list_of, table. split.
  - intros H. destruct args as [|v [|]]; try discriminate; destruct v; try discriminate; cbn [check_choices] in H.
    + exists (VList l). split; [reflexivity|]. left. exists l. split; [reflexivity|].
      rewrite each_iff in H. apply Forall_forall. intros x Hx. apply type_text_int. auto.
    + exists (VDict d). split; [reflexivity|]. right. exists d. split; [reflexivity|].
      rewrite each_iff in H. apply Forall_forall. intros [k x] Hx.
      specialize (H (VList [k; x])). rewrite bind_tt_iff, !type_text_int in H. apply H.
      apply in_map_iff. exists (k, x). auto.
  - intros (x & -> & [(l & -> & H)|(d & -> & H)]); cbn [check_choices]; rewrite Forall_forall in H; apply each_iff.
    + intros x Hx. apply type_text_int. auto.
    + intros v Hv. apply in_map_iff in Hv as ((k & x) & <- & Hv). specialize (H _ Hv).
      cbn [fst snd] in *. rewrite bind_tt_iff, !type_text_int. exact H.
Qed.

Lemma command_iff args : proper_args args -> check_command args = Ok tt <->
  options [("path", a_filled_text); ("path_append", a_filled_text); ("path_prepend", a_filled_text)]
    (fun d => has d "path" -> ~ has d "path_append" /\ ~ has d "path_prepend") args.
Proof.
  intros Hp. unfold check_command. apply options_iff; [reflexivity|]. intros d ->.
  assert (Hd : proper_dict d) by (apply Hp; left; reflexivity).
  rewrite bind_tt_iff. open_dictionary Hd.
  rewrite <- !has_key_iff.
  destruct (has_key d "path"), (has_key d "path_append"), (has_key d "path_prepend"); cbn [andb];
    intuition (try discriminate; congruence).
Qed.

(** Positionals as they are when the other checks succeed. *)
Definition plain_positional (p : dict) : Prop :=
  (exists v z, vget (s "number") p = Some v /\ denotes v z) /\
  (if_given (vget (s "repeatable") p) (nullable a_bool)) /\
  (if_given (vget (s "complete") p) (nullable (fun v => exists x l, v = VList (x :: l)))).
Definition plain_context (c : ctx) : Prop :=
  forall p, cx_positional c = Some p -> plain_positional p /\
    exists ps, cx_positionals c = VList ps /\ forall v, In v ps -> exists q, v = VDict q /\ plain_positional q.

Lemma get_number_iff d n : get_number d = Ok n <-> exists v, vget (s "number") d = Some v /\ denotes v n.
Proof.
  unfold get_number, denotes. destruct (vget (s "number") d) as [v|] eqn:E.
  - split.
    + destruct v; try discriminate; intros H; apply Ok_inj in H; subst n.
      * exists (VBool b). split; [reflexivity|]. right. eauto.
      * exists (VInt z). auto.
    + intros (v' & Ev & [->|(b & -> & ->)]); injection Ev as ->; reflexivity.
  - split; [discriminate|]. intros (v & H & _). discriminate.
Qed.
Lemma denotes_fun v a b : denotes v a -> denotes v b -> a = b.
Proof.
  intros [->|(x & -> & ->)] [H|(y & H & ->)]; try discriminate; injection H as ->; reflexivity.
Qed.
Lemma plain_previous p q : plain_positional p -> plain_positional q ->
  exists b, command_is_previous p (VDict q) = Ok b /\
    (b = true <-> exists x args n m, vget (s "complete") q = Some (VList (VStr (s "command") :: args)) /\
       vget (s "number") q = Some n /\ vget (s "number") p = Some m /\ denotes n x /\ denotes m (x + 1)%Z).
Proof.
  intros ((vp & zp & Ep & Dp) & _ & _) ((vq & zq & Eq & Dq) & _ & Hc).
  assert (Gp : get_number p = Ok zp) by (apply get_number_iff; eauto).
  assert (Gq : get_number q = Ok zq) by (apply get_number_iff; eauto).
  unfold command_is_previous, has_set. destruct (vget (s "complete") q) as [v|] eqn:E.
  2: { exists false. split; [reflexivity|]. split; [discriminate|]. intros (x & args & n & m & H & _). discriminate. }
  destruct (Hc v eq_refl) as [->|(x & l & ->)].
  { exists false. split; [reflexivity|]. split; [discriminate|]. intros (x & args & n & m & H & _). discriminate. }
  cbn [negb bind]. destruct (value_eqb_spec x (VStr (s "command"))) as [->|Hn].
  - rewrite Gp, Gq. cbn [bind]. exists (zq + 1 =? zp)%Z. split; [reflexivity|]. rewrite Z.eqb_eq. split.
    + intros <-. exists zq, l, vq, vp. auto.
    + intros (x & args & n & m & _ & Hn & Hm & Dn & Dm). assert (n = vq) as -> by congruence.
      assert (m = vp) as -> by congruence. rewrite (denotes_fun _ _ _ Dq Dn), (denotes_fun _ _ _ Dp Dm). reflexivity.
  - exists false. split; [reflexivity|]. split; [discriminate|].
    intros (y & args & n & m & H & _). injection H as -> ->. now destruct Hn.
Qed.

Lemma any_previous p ps : plain_positional p ->
  (forall v, In v ps -> exists q, v = VDict q /\ plain_positional q) ->
  exists b, any_res (command_is_previous p) ps = Ok b /\ (b = true <-> follows_command p ps).
Proof.
  intros Hp. induction ps as [|v ps IH]; intros H.
  - exists false. split; [reflexivity|]. split; [discriminate|].
    intros (be & q & a & x & args & n & m & E & _). destruct be; discriminate.
  - destruct (H v (or_introl eq_refl)) as (q & -> & Hq).
    destruct (plain_previous p q Hp Hq) as (b & Eb & Hb).
    destruct (IH (fun v Hv => H v (or_intror Hv))) as (b' & Eb' & Hb').
    change (any_res (command_is_previous p) (VDict q :: ps))
      with (do b <- command_is_previous p (VDict q); if b : bool then Ok true else any_res (command_is_previous p) ps).
    rewrite Eb. cbn [bind]. destruct b.
    + exists true. split; [reflexivity|]. split; [|reflexivity]. intros _.
      destruct (proj1 Hb eq_refl) as (x & args & n & m & K). exists [], q, ps, x, args, n, m. split; [reflexivity|exact K].
    + exists b'. split; [exact Eb'|]. rewrite Hb'. split.
      * intros (be & q' & a & K). exists (VDict q :: be), q', a.
        destruct K as (x & args & n & m & -> & K). exists x, args, n, m. split; [reflexivity|exact K].
      * intros (be & q' & a & x & args & n & m & E & K). destruct be as [|w be].
        -- injection E as -> ->. assert (false = true) by (apply Hb; exists x, args, n, m; exact K). discriminate.
        -- injection E as <- ->. exists be, q', a, x, args, n, m. auto.
Qed.

Lemma command_arg_iff c tr args : plain_context c -> check_command_arg c tr args = Ok tt <->
  args = [] /\ ~ directly_in tr ["combine"; "list"; "key_value_list"; "key_value_pair"] /\
  exists p ps, cx_positional c = Some p /\ cx_positionals c = VList ps /\
    says_true p "repeatable" /\ follows_command p ps.
Proof.
  intros Hc. unfold check_command_arg. rewrite bind_tt_iff, void_iff, <- last_in_iff.
  change (map s ["combine"; "list"; "key_value_list"; "key_value_pair"])
    with [s "combine"; s "list"; s "key_value_list"; s "key_value_pair"].
  destruct (last_in tr _).
  { split; [intros [_ H]; discriminate|]. intros (_ & H & _). now destruct H. }
  destruct (cx_positional c) as [p|] eqn:Ep.
  2: { split; [intros [_ H]; discriminate|]. intros (_ & _ & p & ps & H & _). discriminate. }
  destruct (Hc p Ep) as (Hp & ps & Eps & Hps).
  assert (Hr : negb (has_set p "repeatable") ||
               negb (match vget (s "repeatable") p with Some v => truthy v | None => false end) = false <->
               says_true p "repeatable").
  { destruct Hp as (_ & Hr & _). unfold has_set, says_true. destruct (vget (s "repeatable") p) as [v|] eqn:E.
    - destruct (Hr v eq_refl) as [->|(b & ->)]; [split; discriminate|].
      destruct b; cbn; split; congruence.
    - split; discriminate. }
  destruct (_ || _).
  { split; [intros [_ H]; discriminate|]. intros (_ & _ & p' & ps' & H & _ & H' & _). injection H as <-.
    apply Hr in H'. discriminate. }
  rewrite Eps. destruct (any_previous p ps Hp Hps) as (b & Eb & Hb). rewrite Eb. cbn [bind]. split.
  - intros [-> H]. split; [reflexivity|]. split; [discriminate|]. exists p, ps. destruct b; [|discriminate].
    split; [reflexivity|]. split; [reflexivity|]. split; [now apply Hr|now apply Hb].
  - intros (-> & _ & p' & ps' & H & H' & _ & Hf). injection H as <-. injection H' as <-. apply Hb in Hf. subst b. auto.
Qed.

Lemma given_none P : if_given None P.
Proof. intros v H. discriminate. Qed.
Lemma given_some x P : if_given (Some x) P <-> P x.
Proof. split; [intros H; apply H; reflexivity|intros H v E; injection E as <-; exact H]. Qed.

(** A non-empty list whose elements are looked at later. *)
Lemma given_filled_list f (P : value -> Prop) d k : (forall v, f v = Ok tt <-> P v) ->
  if_given (vget (s k) d) (fun v => check_type v [TList] = Ok tt /\ check_non_empty_list v = Ok tt) /\
  (if has_set d k then on_list f (vget (s k) d) else Ok tt) = Ok tt <->
  if_given (vget (s k) d) (filled_list_of P).
Proof.
  intros Hf. unfold has_set. destruct (vget (s k) d) as [v|].
  2: { split; [intros _; apply given_none|intros _; split; [apply given_none|reflexivity]]. }
  rewrite !given_some, type_list. unfold a_list, filled_list_of. split.
  - intros [[[l ->] Hn] H]. apply on_list_iff in H as (l' & E & H). injection E as <-. exists l.
    split; [reflexivity|]. split; [intros ->; discriminate|]. apply Forall_forall. intros x Hx. apply Hf. auto.
  - intros (l & -> & Hn & H). rewrite Forall_forall in H. split; [split; [eauto|]|].
    + cbn [check_non_empty_list]. destruct l; [now destruct Hn|reflexivity].
    + apply on_list_iff. exists l. split; [reflexivity|]. intros x Hx. apply Hf. auto.
Qed.

Lemma no_key d k l : keys_in l d -> ~ In (s k) l -> vget (s k) d = None.
Proof.
  intros H Hn. destruct (vget (s k) d) as [v|] eqn:E; [|reflexivity]. apply vget_In in E.
  apply (in_map fst) in E. destruct (H _ E) as (n & Hin & K). injection K as K. rewrite K in Hn. contradiction.
Qed.
Lemma no_set d k l : keys_in l d -> ~ In (s k) l -> has_set d k = false.
Proof. intros H Hn. unfold has_set. now rewrite (no_key d k l H Hn). Qed.

Definition filedir_rules (file list_ : bool) : list rule :=
  [MkRule "directory" false [TStr] check_non_empty_string]
     ++ (if file then
           [MkRule "extensions" false [TList] check_non_empty_list;
            MkRule "fuzzy" false [TBool] no_check;
            MkRule "ignore_globs" false [TList] check_non_empty_list]
         else [])
     ++ (if list_ then
           [MkRule "separator" false [TStr] check_char;
            MkRule "duplicates" false [TBool] no_check]
         else []).
Definition filedir_options (e : env) (file list_ : bool) :=
  (if file then file_options e else [("directory", a_filled_text)]) ++ (if list_ then separators else []).
Lemma filedir_iff e file list_ args : proper_args args -> check_filedir e file list_ args = Ok tt <->
  options (filedir_options e file list_) always args.
Proof.
  intros Hp. unfold check_filedir. apply options_iff; [destruct file, list_; reflexivity|].
  intros d ->. assert (Hd : proper_dict d) by (apply Hp; left; reflexivity).
  fold (filedir_rules file list_). unfold proper_dict in Hd.
  assert (N : NoDup (map (fun r => s (r_key r)) (filedir_rules file list_)))
    by (destruct file, list_; names).
  assert (N2 : NoDup (map (fun a => s (fst a)) (filedir_options e file list_)))
    by (destruct file, list_; names).
  assert (EK : map (fun r => s (r_key r)) (filedir_rules file list_)
    = map (fun a => s (fst a)) (filedir_options e file list_)) by (destruct file, list_; reflexivity).
  rewrite !bind_tt_iff, (dictionary_iff _ _ Hd N), (parameters_iff _ _ Hd N2), EK.
  assert (R : Forall (fun r => r_required r = true -> has d (r_key r)) (filedir_rules file list_))
    by (destruct file, list_; repeat constructor; discriminate).
  destruct file.
  - pose proof (given_filled_list check_extension a_word d "extensions" word_iff) as G1.
    pose proof (given_filled_list (check_glob e) (a_glob e) d "ignore_globs" (glob_iff e)) as G2.
    destruct list_; unfold filedir_rules, filedir_options, file_options, separators in *;
      cbn [app] in *; rewrite !Forall_cons_iff in *;
      cbn [r_key r_types r_check r_required fst snd] in *;
      rewrite ?given_filled, ?given_char, ?given_bool, <- G1, <- G2; rewrite ?Forall_nil_iff in *; unfold always; tauto.
  - split.
    + intros ((K & F & _) & _ & _). split; [|exact I]. split; [exact K|].
      revert F. destruct list_; unfold filedir_rules, filedir_options, separators; cbn [app];
        rewrite !Forall_cons_iff; cbn [r_key r_types r_check fst snd];
        rewrite ?given_filled, ?given_char, ?given_bool, ?Forall_nil_iff; tauto.
    + intros ((K & F) & _). split; [split; [exact K|split; [|exact R]]|].
      * revert F. destruct list_; unfold filedir_rules, filedir_options, separators; cbn [app];
          rewrite !Forall_cons_iff; cbn [r_key r_types r_check fst snd];
          rewrite ?given_filled, ?given_char, ?given_bool, ?Forall_nil_iff; tauto.
      * rewrite (no_set _ "extensions" _ K), (no_set _ "ignore_globs" _ K); [auto| |];
          destruct list_; cbn; intuition discriminate.
Qed.

Lemma regex_arg_iff e args : check_regex_arg e args = Ok tt <-> exists x, args = [x] /\ a_regex e x.
Proof.
  split.
  - destruct args as [|[] [|]]; try discriminate. intros H. exists (VStr x). split; [reflexivity|].
    apply regex_iff. split; [exists x; reflexivity|exact H].
  - intros (v & -> & H). apply regex_iff in H as [[x ->] H]. exact H.
Qed.

Lemma int_of_iff v z : int_of v = Some z <-> denotes v z.
Proof.
  unfold denotes. destruct v; cbn [int_of]; split;
    try (intros H; discriminate); try (intros [H|(b' & H & _)]; discriminate).
  - intros H; injection H as <-. right. eauto.
  - intros [H|(b' & H & ->)]; [discriminate|]. injection H as <-. reflexivity.
  - intros H; injection H as <-. auto.
  - intros [H|(b' & H & _)]; [|discriminate]. injection H as <-. reflexivity.
Qed.
Definition range_check (start stop step : value) : res unit :=
  match int_of start, int_of stop, int_of step with
  | Some start, Some stop, Some step =>
      if (step =? 0)%Z then Err (sch "step: Integer cannot be zero")
      else if (step >? 0)%Z && (start >? stop)%Z then Err (sch "start > stop")
      else if (step <? 0)%Z && (stop >? start)%Z then Err (sch "stop > start")
      else Ok tt
  | _, _, _ => Err (sch "Invalid type")
  end.
Lemma range_check_iff a b x : range_check a b x = Ok tt <->
  exists start stop step, denotes a start /\ denotes b stop /\ denotes x step /\ step <> 0%Z /\
    in_range start stop step start.
Proof.
  split.
  - intros H. unfold range_check in H. destruct (int_of a) as [z1|] eqn:E1; [|discriminate].
    destruct (int_of b) as [z2|] eqn:E2; [|discriminate]. destruct (int_of x) as [z3|] eqn:E3; [|discriminate].
    apply int_of_iff in E1, E2, E3. exists z1, z2, z3. repeat (split; [assumption|]).
    apply check_range_iff. exact H.
  - intros (z1 & z2 & z3 & D1 & D2 & D3 & H). apply int_of_iff in D1, D2, D3. unfold range_check. rewrite D1, D2, D3.
    apply check_range_iff in H. exact H.
Qed.
Lemma range_iff args : check_range args = Ok tt <->
  exists a b start stop step,
    (args = [a; b] /\ step = 1%Z \/ exists x, args = [a; b; x] /\ denotes x step) /\
    denotes a start /\ denotes b stop /\ step <> 0%Z /\ in_range start stop step start.
Proof.
  split.
  - intros H. destruct args as [|a [|b [|x [|]]]]; try discriminate.
    + change (range_check a b (VInt 1) = Ok tt) in H. apply range_check_iff in H as (z1 & z2 & z3 & D1 & D2 & D3 & H).
      assert (z3 = 1%Z) as -> by (apply (denotes_fun _ _ _ D3); left; reflexivity).
      exists a, b, z1, z2, 1%Z. auto.
    + change (range_check a b x = Ok tt) in H. apply range_check_iff in H as (z1 & z2 & z3 & D1 & D2 & D3 & H).
      exists a, b, z1, z2, z3. split; [right; eauto|auto].
  - intros (a & b & z1 & z2 & z3 & [[-> ->]|(x & -> & D3)] & D1 & D2 & H).
    + change (range_check a b (VInt 1) = Ok tt). apply range_check_iff. exists z1, z2, 1%Z.
      repeat (split; [assumption|]). split; [left; reflexivity|exact H].
    + change (range_check a b x = Ok tt). apply range_check_iff. exists z1, z2, z3. auto.
Qed.

Lemma exec_iff args : check_exec args = Ok tt <-> exists x, args = [x] /\ a_text x.
Proof.
  unfold a_text. split.
  - destruct args as [|[] [|]]; try discriminate. eauto.
  - intros (v & -> & x & ->). reflexivity.
Qed.
Lemma char_str x : check_char (VStr x) = Ok tt <-> a_character (VStr x).
Proof. rewrite <- char_iff. split; [intros H; split; [eexists; reflexivity|exact H]|tauto]. Qed.
Lemma filled_str x : check_non_empty_string (VStr x) = Ok tt <-> a_filled_text (VStr x).
Proof. rewrite <- filled_iff. split; [intros H; split; [eexists; reflexivity|exact H]|tauto]. Qed.
Lemma char_text v : a_character v -> exists x, v = VStr x.
Proof. intros (ch & ->). eauto. Qed.
Lemma filled_text v : a_filled_text v -> exists x, v = VStr x.
Proof. intros (x & -> & _). eauto. Qed.
Lemma kvl_exec_iff args : check_key_value_list_exec args = Ok tt <->
  exists x y z, args = [x; y; z] /\ a_character x /\ a_character y /\ a_filled_text z.
Proof.
  split.
  - destruct args as [|[] [|[] [|[] [|]]]]; try discriminate. intros H. cbn [check_key_value_list_exec] in H.
    rewrite !bind_tt_iff, !char_str, filled_str in H. exists (VStr x), (VStr x0), (VStr x1). tauto.
  - intros (x & y & z & -> & H). destruct H as (Hx & Hy & Hz).
    destruct (char_text _ Hx) as [x' ->], (char_text _ Hy) as [y' ->], (filled_text _ Hz) as [z' ->].
    cbn [check_key_value_list_exec]. rewrite !bind_tt_iff, !char_str, filled_str. auto.
Qed.
Lemma kvp_exec_iff args : check_key_value_pair_exec args = Ok tt <->
  exists x y, args = [x; y] /\ a_character x /\ a_filled_text y.
Proof.
  split.
  - destruct args as [|[] [|[] [|]]]; try discriminate. intros H. cbn [check_key_value_pair_exec] in H.
    rewrite !bind_tt_iff, !char_str, filled_str in H. exists (VStr x), (VStr x0). tauto.
  - intros (x & y & -> & Hx & Hy).
    destruct (char_text _ Hx) as [x' ->], (filled_text _ Hy) as [y' ->].
    cbn [check_key_value_pair_exec]. rewrite !bind_tt_iff, !char_str, filled_str. auto.
Qed.

Lemma type_list_dict v : check_type v [TList; TDict] = Ok tt <-> (exists l, v = VList l) \/ exists d, v = VDict d.
Proof. destruct v; cbn; split; try discriminate; eauto; intros [[? H]|[? H]]; discriminate. Qed.
Lemma pairs_iff (P Q : value -> Prop) f g (d : dict) : (forall v, f v = Ok tt <-> P v) -> (forall v, g v = Ok tt <-> Q v) ->
  each (fun v => match v with VList [k; x] => do _ <- f k; g x | _ => Err TypeError end)
       (map (fun kv => VList [fst kv; snd kv]) d) = Ok tt <->
  Forall (fun kv => P (fst kv) /\ Q (snd kv)) d.
Proof.
  intros Hf Hg. rewrite each_iff, Forall_forall. split.
  - intros H [k x] Hx. cbn [fst snd]. specialize (H (VList [k; x])). cbn iota in H. rewrite bind_tt_iff, Hf, Hg in H.
    apply H. apply in_map_iff. exists (k, x). auto.
  - intros H v Hv. apply in_map_iff in Hv as ((k & x) & <- & Hv). specialize (H _ Hv). cbn [fst snd] in *.
    rewrite bind_tt_iff, Hf, Hg. exact H.
Qed.
Lemma value_list_iff args : proper_args args -> check_value_list args = Ok tt <->
  exists d, args = [VDict d] /\
    parameters (("values", fun v => filled_list_of a_text v \/ filled_table a_text a_text v) :: separators) d /\
    has d "values".
Proof.
  intros Hp. split.
  - destruct args as [|[] [|]]; try discriminate. intros H. exists d. split; [reflexivity|].
    assert (Hd : proper_dict d) by (apply Hp; left; reflexivity). cbn [check_value_list] in H.
    rewrite bind_tt_iff in H. revert H. unfold separators. open_dictionary Hd. intros ((K & (Hv & Hs & Hb) & (Hr & _)) & H).
    specialize (Hr eq_refl). split; [|exact Hr]. split; [exact K|]. split; [|tauto].
    destruct Hr as [v Ev]. rewrite Ev in *. apply given_some. apply given_some in Hv as [Hv _].
    apply type_list_dict in Hv as [[l ->]|[x ->]]; rewrite bind_tt_iff in H; destruct H as [Hn H].
    + left. exists l. split; [reflexivity|]. split; [intros ->; discriminate|]. rewrite each_iff in H.
      apply Forall_forall. intros y Hy. apply type_text. auto.
    + right. exists x. split; [reflexivity|]. split; [intros ->; discriminate|].
      rewrite (pairs_iff a_text a_text) in H; [exact H|apply type_text|apply type_text].
  - intros (d & -> & H & Hr). assert (Hd : proper_dict d) by (apply Hp; left; reflexivity). cbn [check_value_list].
    rewrite bind_tt_iff. revert H. unfold separators. open_dictionary Hd. intros (K & Hv & Hs & Hb & _).
    destruct Hr as [v Ev]. rewrite Ev in *. apply given_some in Hv. split.
    + split; [exact K|]. split.
      * split; [|tauto]. apply given_some. rewrite no_check_ok. apply type_list_dict.
        destruct Hv as [(l & -> & _)|(x & -> & _)]; eauto.
      * split; [intros _; eexists; exact Ev|]. split; [discriminate|]. split; [discriminate|exact I].
    + destruct Hv as [(l & -> & Hn & H)|(x & -> & Hn & H)]; rewrite bind_tt_iff.
      * split; [destruct l; [now destruct Hn|reflexivity]|]. rewrite Forall_forall in H. apply each_iff. intros y Hy.
        apply type_text. auto.
      * split; [destruct x; [now destruct Hn|reflexivity]|].
        rewrite (pairs_iff a_text a_text); [exact H|apply type_text|apply type_text].
Qed.

Lemma date_iff args : check_date args = Ok tt <-> exists x, args = [x] /\ a_filled_text x.
Proof.
  split.
  - destruct args as [|[] [|]]; try discriminate. intros H. cbn [check_date] in H. rewrite filled_str in H. eauto.
  - intros (x & -> & H). destruct (filled_text _ H) as [x' ->]. cbn [check_date]. now rewrite filled_str.
Qed.
Lemma ip_iff args : check_ip_address args = Ok tt <->
  args = [] \/ exists x, args = [x] /\ one_of ["ipv4"; "ipv6"; "all"; "ipv4+"; "ipv6+"; "all+"] x.
Proof.
  unfold one_of. split.
  - destruct args as [|[] [|]]; try discriminate; [auto|]. cbn [check_ip_address]. intros H. right.
    exists (VStr x). split; [reflexivity|].
    change [s "ipv4"; s "ipv6"; s "all"; s "ipv4+"; s "ipv6+"; s "all+"]
      with (map s ["ipv4"; "ipv6"; "all"; "ipv4+"; "ipv6+"; "all+"]) in H.
    destruct (mems x _) eqn:E; [|discriminate]. apply mems_In, in_map_iff in E as (n & <- & Hn). eauto.
  - intros [->|(v & -> & n & Hn & ->)]; [reflexivity|]. cbn [check_ip_address].
    change [s "ipv4"; s "ipv6"; s "all"; s "ipv4+"; s "ipv6+"; s "all+"]
      with (map s ["ipv4"; "ipv6"; "all"; "ipv4+"; "ipv6+"; "all+"]).
    assert (E : mems (s n) (map s ["ipv4"; "ipv6"; "all"; "ipv4+"; "ipv6+"; "all+"]) = true)
      by (now apply mems_In, in_map).
    now rewrite E.
Qed.

Lemma suffixes_iff x : check_suffixes x = Ok tt <->
  Forall (fun kv => a_filled_text (fst kv) /\ a_filled_text (snd kv)) x.
Proof.
  induction x as [|[k v] x IH]; [split; [constructor|reflexivity]|]. cbn [check_suffixes].
  rewrite bind_tt_iff, Forall_cons_iff, IH. unfold check_suffix. cbn [fst snd].
  rewrite !bind_tt_iff, !type_text, <- !filled_iff. tauto.
Qed.
Lemma type_dict v : check_type v [TDict] = Ok tt <-> exists d, v = VDict d.
Proof. destruct v; cbn; split; try discriminate; eauto; intros [? H]; discriminate. Qed.
Lemma given_suffixes d :
  if_given (vget (s "suffixes") d) (fun v => check_type v [TDict] = Ok tt /\ check_non_empty_dict v = Ok tt) /\
  match vget (s "suffixes") d with
  | None | Some VNone => Ok tt
  | Some (VDict x) => check_suffixes x
  | Some _ => Err TypeError
  end = Ok tt <->
  if_given (vget (s "suffixes") d) (filled_table a_filled_text a_filled_text).
Proof.
  destruct (vget (s "suffixes") d) as [v|].
  2: { split; [intros _; apply given_none|intros _; split; [apply given_none|reflexivity]]. }
  rewrite !given_some, type_dict. unfold filled_table. split.
  - intros [[[x ->] Hn] H]. exists x. split; [reflexivity|]. split; [intros ->; discriminate|]. now apply suffixes_iff.
  - intros (x & -> & Hn & H). split; [split; [eauto|destruct x; [now destruct Hn|reflexivity]]|]. now apply suffixes_iff.
Qed.

Lemma number_denotes v : a_number v <-> (exists z, denotes v z) \/ exists x, v = VFloat x.
Proof.
  unfold a_number, an_integer, denotes. split.
  - intros [[[z ->]|[b ->]]|H]; [left; eauto|left; eauto|right; exact H].
  - intros [[z [->|(b & -> & _)]]|H]; eauto.
Qed.
Lemma not_above_iff e a b : a_number a -> a_number b -> value_gt e a b = false <-> not_above e a b.
Proof.
  intros Ha Hb. unfold value_gt, not_above. apply number_denotes in Ha, Hb.
  destruct Ha as [[x Hx]|[x ->]], Hb as [[y Hy]|[y ->]].
  - rewrite (proj2 (int_of_iff a x) Hx), (proj2 (int_of_iff b y) Hy). rewrite Z.gtb_ltb, Z.ltb_ge. split.
    + intros H. split.
      * intros x' y' Hx' Hy'. rewrite (denotes_fun _ _ _ Hx' Hx), (denotes_fun _ _ _ Hy' Hy). exact H.
      * intros [[z ->]|[z ->]]; [destruct Hx as [K|(c & K & _)]|destruct Hy as [K|(c & K & _)]]; discriminate.
    + intros [H _]. auto.
  - rewrite (proj2 (int_of_iff a x) Hx). cbn [int_of]. split.
    + intros H. split; [intros x' y' _ [K|(c & K & _)]; discriminate|intros _; exact H].
    + intros [_ H]. apply H. right. eauto.
  - cbn [int_of]. split.
    + intros H. split; [intros x' y' [K|(c & K & _)]; discriminate|intros _; exact H].
    + intros [_ H]. apply H. left. eauto.
  - cbn [int_of]. split.
    + intros H. split; [intros x' y' [K|(c & K & _)]; discriminate|intros _; exact H].
    + intros [_ H]. apply H. left. eauto.
Qed.
Lemma number_not_null v : a_number v -> v <> VNone.
Proof. intros [[[z ->]|[b ->]]|[x ->]]; discriminate. Qed.
Lemma number_iff e types P args : (forall v, check_type v types = Ok tt <-> P v) -> (forall v, P v -> a_number v) ->
  proper_args args -> check_integer_float e types args = Ok tt <->
  options (number_options P) (ordered e) args.
Proof.
  intros Ht Hnum Hp. unfold check_integer_float. apply options_iff; [reflexivity|]. intros d ->.
  assert (Hd : proper_dict d) by (apply Hp; left; reflexivity).
  rewrite !bind_tt_iff. unfold number_options. open_dictionary Hd.
  rewrite <- given_suffixes.
  assert (G : forall k, if_given (vget (s k) d) (fun v => check_type v types = Ok tt /\ no_check v = Ok tt) <->
                        if_given (vget (s k) d) P).
  { intros k. apply given_iff. intros v. rewrite no_check_ok. apply Ht. }
  rewrite !G.
  assert (O : if_given (vget (s "min") d) P -> if_given (vget (s "max") d) P ->
    match vget (s "min") d, vget (s "max") d with
    | Some a, Some b =>
        if has_set d "min" && has_set d "max" && value_gt e a b then Err (sch "min > max") else Ok tt
    | _, _ => Ok tt
    end = Ok tt <-> ordered e d).
  { unfold ordered, has_set. intros H1 H2. destruct (vget (s "min") d) as [a|] eqn:E1.
    2: { split; [intros _ a b K; discriminate|reflexivity]. }
    destruct (vget (s "max") d) as [b|] eqn:E2.
    2: { split; [intros _ a' b _ K; discriminate|reflexivity]. }
    apply given_some in H1, H2. apply Hnum in H1, H2.
    assert (F : forall v : value, a_number v -> match v with VNone => false | _ => true end = true)
      by (intros v Hv; apply number_not_null in Hv; destruct v; congruence).
    assert (F1 : match (Some a : option value) with None | Some VNone => false | Some _ => true end = true)
      by (specialize (F a H1); destruct a; congruence).
    assert (F2 : match (Some b : option value) with None | Some VNone => false | Some _ => true end = true)
      by (specialize (F b H2); destruct b; congruence).
    rewrite F1, F2. cbn [andb]. pose proof (not_above_iff e a b H1 H2) as A.
    split.
    - intros H a' b' Ea Eb. injection Ea as <-. injection Eb as <-. apply A. destruct (value_gt e a b); [discriminate|reflexivity].
    - intros H. specialize (H a b eq_refl eq_refl). apply A in H. now rewrite H. }
  split.
  - intros ((K & (H1 & H2 & H3 & H4 & _) & _) & H5 & H6). apply (O H1 H2) in H5. tauto.
  - intros ((K & H1 & H2 & H3 & (H4 & H6) & _) & H5). apply (O H1 H2) in H5.
    split; [split; [exact K|split; [tauto|]]|split; [exact H5|exact H6]].
    repeat (split; [discriminate|]). exact I.
Qed.
