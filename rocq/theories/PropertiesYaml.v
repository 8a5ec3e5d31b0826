(** * Properties C31 and C100: reading YAML files. *)
From Coq Require Import String.
From Verif Require Import Base Value YamlParser SpecYaml YamlProofs SpecYamlScalar YamlScalarProofs SchemeValidator PropertiesScheme.
Open Scope list_scope.
Open Scope string_scope.

(** ** C31 *)

(** For the events of any documents whose roots are mappings or sequences, the parser returns one object
    per document, and each object stands for its document: nested to any depth, everything in order, every
    scalar converted once and at its position; the last value of a key counts. *)
Theorem C31_documents docs :
  Forall is_collection docs ->
  exists ids h, parse_events (stream docs) = Ok (ids, h) /\
    Forall2 (stands_for h) ids (map (meaning convert_scalar) docs).
Proof. exact (parse_right docs). Qed.
Print Assumptions C31_documents.

(** An object stands for nothing else. *)
Theorem C31_unique h i n n' : stands_for h i n -> stands_for h i n' -> n = n'.
Proof. intros H H'. exact (stands_unique h n i n' H H'). Qed.
Print Assumptions C31_unique.

(** Aliases are rejected, wherever they stand. *)
Theorem C31_aliases l p r : In (Alias p) l -> parse_events l <> Ok r.
Proof.
  intros H. unfold parse_events. assert (forall st st', handle_events st l <> Ok st') as K.
  { induction l as [| e l IH]; intros st st' E; [destruct H |]. cbn [handle_events] in E. destruct H as [-> | H]; [discriminate |].
    destruct (handle_event st e) as [x | st1]; [discriminate |]. exact (IH H st1 st' E). }
  destruct (handle_events start_state l) as [x | st] eqn:E; [discriminate |]. destruct (K _ _ E).
Qed.
Print Assumptions C31_aliases.

Definition plain (line column : Z) (x : String.string) : scalar := ((line, column), s x, true).
Definition quoted (line column : Z) (x : String.string) : scalar := ((line, column), s x, false).
(** prog: tool
    options:
      - option_strings: [-v, "--verbose"]
        repeatable: No
        level: 12
        "repeatable": Yes
    ---
    - []
    - null: {} *)
Definition two : list tree :=
  [ TMap (0, 0)%Z
      [ (plain 0 0 "prog", TScalar (plain 0 6 "tool"));
        (plain 1 0 "options", TSeq (2, 2)%Z
          [ TMap (2, 4)%Z
              [ (plain 2 4 "option_strings", TSeq (2, 20)%Z [TScalar (plain 2 21 "-v"); TScalar (quoted 2 25 "--verbose")]);
                (plain 3 4 "repeatable", TScalar (plain 3 16 "No"));
                (plain 4 4 "level", TScalar (plain 4 11 "12"));
                (quoted 5 4 "repeatable", TScalar (plain 5 18 "Yes")) ] ]) ];
    TSeq (7, 0)%Z [ TSeq (7, 2)%Z []; TMap (8, 2)%Z [ (plain 8 2 "null", TMap (8, 8)%Z []) ] ] ].
Example C31_example :
  Forall is_collection two /\
  map erase (map (meaning convert_scalar) two) =
  [ VDict [ (VStr (s "prog"), VStr (s "tool"));
            (VStr (s "options"), VList [ VDict [ (VStr (s "option_strings"), VList [VStr (s "-v"); VStr (s "--verbose")]);
                                                  (VStr (s "repeatable"), VBool true); (VStr (s "level"), VInt 12) ] ]) ];
    VList [ VList []; VDict [ (VNone, VDict []) ] ] ] /\
  (exists ids h, parse_events (stream two) = Ok (ids, h) /\ List.length ids = 2 /\ nth_error h 8 = Some ((2, 21)%Z, CScalar (VStr (s "-v")))).
Proof.
  split; [repeat constructor |]. split; [reflexivity |].
  eexists _, _. split; [vm_compute; reflexivity |]. split; vm_compute; reflexivity.
Qed.

(** ** C100 *)

(** Validation works on the objects of the parser, conversion on what [yaml.safe_load_all] returns.
    For documents all of whose scalars are quoted, ordinary words or decimal integers in the usual
    notation the two are the same.  Missing: all other scalars; see below. *)
Theorem C100_same_documents_partial docs :
  Forall is_collection docs ->
  (forall t p x b, In t docs -> In (p, x, b) (scalars t) -> ordinary x b) ->
  exists ids h, parse_events (stream docs) = Ok (ids, h) /\
    Forall2 (stands_for h) ids (map (meaning yaml_convert) docs).
Proof.
  intros Hc Ho.
  assert (forall t, (forall p x b, In (p, x, b) (scalars t) -> ordinary x b) -> meaning yaml_convert t = meaning convert_scalar t) as K.
  { assert (forall p x b, ordinary x b -> scalar_value yaml_convert (p, x, b) = scalar_value convert_scalar (p, x, b)) as Ks.
    { intros p x b H. unfold scalar_value, yaml_convert. cbn [fst snd]. now rewrite (ordinary_agree x b H). }
    induction t as [x | p items IH | p items IH] using tree_ind'; intros H.
    - destruct x as [[p x] b]. cbn [meaning]. now rewrite (Ks p x b (H p x b (or_introl eq_refl))).
    - cbn [meaning]. f_equal. f_equal. apply map_ext_in. intros [[[pk x] b] t] Hin. rewrite Forall_forall in IH. cbn [fst snd]. f_equal.
      + apply Ks, (H pk). cbn [scalars]. apply in_flat_map. eexists. split; [exact Hin | now left].
      + apply (IH _ Hin). intros q y b' Hy. apply (H q). cbn [scalars]. apply in_flat_map. eexists. split; [exact Hin | now right].
    - cbn [meaning]. f_equal. apply map_ext_in. intros t Hin. rewrite Forall_forall in IH. apply (IH _ Hin). intros q y b' Hy. apply (H q). cbn [scalars]. apply in_flat_map. now exists t. }
  rewrite (map_ext_in _ (meaning convert_scalar)); [now apply parse_right |]. intros t Ht. apply K. intros p x b. now apply Ho.
Qed.
Print Assumptions C100_same_documents_partial.

(** The pieces: every ordinary scalar has the value that YAML gives it. *)
Theorem C100_words_partial x : ordinary_word x -> yaml_value x true = Some (convert_scalar x true).
Proof. exact (words_agree x). Qed.
Print Assumptions C100_words_partial.
Theorem C100_integers_partial x : ordinary_integer x ->
  yaml_value x true = Some (convert_scalar x true) /\ convert_scalar x true = VInt (int_value x).
Proof. exact (integers_agree x). Qed.
Print Assumptions C100_integers_partial.
Theorem C100_quoted x : yaml_value x false = Some (VStr x) /\ convert_scalar x false = VStr x.
Proof. now split. Qed.
Print Assumptions C100_quoted.

(** Ways to see that scalars are ordinary. *)
Definition ends_ok (x : str) : bool :=
  match x with [] => true | c :: _ => negb (is_space c) && negb (is_space (List.last x 0%N)) end.
Definition word_ok (x : str) : bool :=
  ends_ok x && match unsigned x with [] => true | c :: _ => negb (is_digit c) && negb (N.eqb c DOT) end
  && negb (mems (lower (unsigned x)) (map s ["inf"; "infinity"; "nan"]))
  && (negb (mems (lower x) special_words) || mems x usual_spellings) && negb (str_eqb x (s "<<")) && negb (str_eqb x (s "=")).
Lemma by_word x : word_ok x = true -> ordinary_word x.
Proof.
  unfold word_ok. rewrite !andb_true_iff. intros (((((H1 & H2) & H3) & H4) & H5) & H6). repeat split.
  - intros c y ->. cbn in H1. apply andb_true_iff in H1 as [H1 _]. now apply negb_true_iff in H1.
  - intros y c ->. unfold ends_ok in H1. rewrite List.last_last in H1. destruct (y ++ [c])%list eqn:E; [destruct y; discriminate |].
    apply andb_true_iff in H1 as [_ H1]. now apply negb_true_iff in H1.
  - rewrite H in H2. apply andb_true_iff in H2 as [H2 _]. now apply negb_true_iff in H2.
  - rewrite H in H2. apply andb_true_iff in H2 as [_ H2]. apply negb_true_iff, N.eqb_neq in H2. exact H2.
  - apply negb_true_iff, mems_not in H3. exact H3.
  - intros K. apply mems_In in K. rewrite K in H4. cbn in H4. now apply mems_In.
  - intros ->. discriminate.
  - intros ->. discriminate.
Qed.
Definition integer_ok (x : str) : bool :=
  str_eqb (unsigned x) (s "0") || match unsigned x with c :: y => is_digit c && negb (N.eqb c 48) && forallb is_digit y | [] => false end.
Lemma by_integer x : integer_ok x = true -> ordinary_integer x.
Proof.
  unfold integer_ok. rewrite orb_true_iff. intros [H | H]; [left; now apply str_eqb_eq |]. right. destruct (unsigned x) as [| c y]; [discriminate |].
  rewrite !andb_true_iff in H. destruct H as [[H1 H2] H3]. exists c, y. repeat split; [exact H1 | now apply negb_true_iff, N.eqb_neq in H2 |].
  apply Forall_forall. intros d Hd. rewrite forallb_forall in H3. now apply H3.
Qed.
Definition ordinary_ok (x : scalar) : bool := negb (snd x) || word_ok (snd (fst x)) || integer_ok (snd (fst x)).
Example C100_example :
  Forall is_collection two /\
  (forall t p x b, In t two -> In (p, x, b) (scalars t) -> ordinary x b) /\
  ordinary_word (s "--verbose") /\ ordinary_word (s "a = b") /\ ordinary_word (s "Yes") /\ ordinary_integer (s "-120").
Proof.
  split; [repeat constructor |].
  split; [| split; [apply by_word; reflexivity | split; [apply by_word; reflexivity | split; [apply by_word; reflexivity | apply by_integer; reflexivity]]]].
  assert (forallb (fun t => forallb ordinary_ok (scalars t)) two = true) as K by reflexivity.
  intros t p x b Ht Hx -> . rewrite forallb_forall in K. apply K in Ht. rewrite forallb_forall in Ht. apply Ht in Hx. unfold ordinary_ok in Hx. cbn [fst snd negb orb] in Hx.
  apply orb_true_iff in Hx as [Hx | Hx]; [left; now apply by_word | right; now apply by_integer].
Qed.

(** {prog: tool, options: [{option_strings: [OPTION], KEY: VALUE}]} *)
Definition one_option (option key val : String.string) : tree :=
  TMap (0, 0)%Z
    [ (plain 0 0 "prog", TScalar (plain 0 6 "tool"));
      (plain 1 0 "options", TSeq (2, 2)%Z
        [ TMap (2, 4)%Z
            [ (plain 2 4 "option_strings", TSeq (2, 20)%Z [TScalar (plain 2 21 option)]);
              (plain 3 4 key, TScalar (plain 3 30 val)) ] ]) ].
(** {prog: tool, positionals: [{number: NUMBER}]} *)
Definition one_positional (number : String.string) : tree :=
  TMap (0, 0)%Z
    [ (plain 0 0 "prog", TScalar (plain 0 6 "tool"));
      (plain 1 0 "positionals", TSeq (2, 2)%Z [ TMap (2, 4)%Z [ (plain 2 4 "number", TScalar (plain 2 20 number)) ] ]) ].
Definition validated (t : tree) : value := erase (meaning convert_scalar t).
Definition converted (t : tree) : value := erase (meaning yaml_convert t).
Definition rejected (v : value) : Prop := exists m, validate e0 [v] = Err m.
Definition accepted (v : value) : Prop := validate e0 [v] = Ok tt.

(** [help: nan] is a text in YAML, and a valid definition; but it is rejected. *)
Theorem C100_nan_refuted : let t := one_option "-n" "help" "nan" in accepted (converted t) /\ rejected (validated t).
Proof. split; [vm_compute; reflexivity | eexists; vm_compute; reflexivity]. Qed.
Print Assumptions C100_nan_refuted.
(** So is the option [-inf], *)
Theorem C100_option_refuted : let t := one_option "-inf" "help" "Infinite" in accepted (converted t) /\ rejected (validated t).
Proof. split; [vm_compute; reflexivity | eexists; vm_compute; reflexivity]. Qed.
Print Assumptions C100_option_refuted.
(** and [help: 1e3]. *)
Theorem C100_exponent_refuted : let t := one_option "-n" "help" "1e3" in accepted (converted t) /\ rejected (validated t).
Proof. split; [vm_compute; reflexivity | eexists; vm_compute; reflexivity]. Qed.
Print Assumptions C100_exponent_refuted.
(** [repeatable: tRUE] is a text in YAML, which validation refuses; but it is accepted. *)
Theorem C100_case_refuted : let t := one_option "-n" "repeatable" "tRUE" in rejected (converted t) /\ accepted (validated t).
Proof. split; [eexists; vm_compute; reflexivity | vm_compute; reflexivity]. Qed.
Print Assumptions C100_case_refuted.
(** The positional number [010] is validated as the tenth argument and becomes the eighth. *)
Theorem C100_octal_refuted : let t := one_positional "010" in
  accepted (validated t) /\ accepted (converted t) /\
  validated t = VDict [entry "prog" (text "tool"); entry "positionals" (VList [VDict [entry "number" (VInt 10)]])] /\
  converted t = VDict [entry "prog" (text "tool"); entry "positionals" (VList [VDict [entry "number" (VInt 8)]])].
Proof. split; [vm_compute; reflexivity |]. split; [vm_compute; reflexivity |]. split; reflexivity. Qed.
Print Assumptions C100_octal_refuted.
(** [0x1], as good a number as 1 in YAML, is rejected. *)
Theorem C100_hexadecimal_refuted : let t := one_positional "0x1" in accepted (converted t) /\ rejected (validated t).
Proof. split; [vm_compute; reflexivity | eexists; vm_compute; reflexivity]. Qed.
Print Assumptions C100_hexadecimal_refuted.
(** A scalar at the root leaks into the next document: of the two documents "a" and "b" only "b" is
    returned, and of one nothing. *)
Theorem C100_root_scalars_refuted :
  (exists h, parse_events (stream [TScalar (plain 0 0 "a"); TScalar (plain 2 0 "b")]) = Ok ([1], h) /\ nth_error h 1 = Some ((2, 0)%Z, CScalar (VStr (s "b")))) /\
  (exists h, parse_events (stream [TScalar (plain 0 0 "a")]) = Ok ([], h)).
Proof. split; [eexists; split; vm_compute; reflexivity | eexists; vm_compute; reflexivity]. Qed.
Print Assumptions C100_root_scalars_refuted.
