(** * Property C114: command trees written as JSON and YAML.  Statements only. *)
From Verif Require Import Base Value StrUtils Cli SpecCli CliExamples DictSource SpecDict DictSourceProofs PropertiesDict
  SchemeValidator YamlText SpecYamlText YamlTextMain YamlTextTree.
Open Scope string_scope.
Open Scope list_scope.

(** C114.  A command tree written as JSON is read back as the same definitions, if the keys of its
    dictionaries are texts, its texts have no surrogates and its floats are finite (full claim: every
    command tree) ... *)
Theorem C114_json_partial : forall c : cmd,
  (forall d, In d (commandline_to_dictionaries c) -> json_writable d = true) ->
  read_text json (commandline_to_json c) = Some (VList (commandline_to_dictionaries c)).
Proof. intros c H. apply json_read. cbn. now apply forallb_forall. Qed.
Print Assumptions C114_json_partial.

(** ... and so it is if it is written as YAML, if moreover its texts have only characters below 65536
    and its floats have a dot and, if any, a signed exponent. *)
Theorem C114_yaml_partial : forall c : cmd,
  (forall d, In d (commandline_to_dictionaries c) -> yaml_writable d = true) ->
  read_yaml (commandline_to_yaml c) = Some (commandline_to_dictionaries c).
Proof. exact yaml_round_trip. Qed.
Print Assumptions C114_yaml_partial.

(** So the tree itself can be had back from both texts. *)
Theorem C114_tree_partial : forall c : cmd, built c -> expressible c ->
  (forall d, In d (commandline_to_dictionaries c) -> json_writable d = true /\ yaml_writable d = true) ->
  (exists l, read_text json (commandline_to_json c) = Some (VList l) /\ dictionaries_to_commandline l = Ok c) /\
  (exists l, read_yaml (commandline_to_yaml c) = Some l /\ dictionaries_to_commandline l = Ok c).
Proof.
  intros c Hb He H. pose proof (round_trip c Hb He) as R. split; eexists; (split; [| exact R]).
  - apply C114_json_partial. intros d Hd. now apply H.
  - apply C114_yaml_partial. intros d Hd. now apply H.
Qed.
Print Assumptions C114_tree_partial.

(** The tree of the examples, with sub-commands, options and positional arguments. *)
Example C114_example : built git /\ expressible git /\
  (forall d, In d (commandline_to_dictionaries git) -> json_writable d = true /\ yaml_writable d = true) /\
  length (c_options git) + length (c_positionals git) > 0 /\ length (commandline_to_dictionaries git) = 4.
Proof.
  split; [exact git_built |]. split; [exact git_expressible |]. split; [| split; [vm_compute; repeat constructor | reflexivity]].
  intros d Hd. apply andb_true_iff. revert d Hd. apply forallb_forall. vm_compute. reflexivity.
Qed.

Definition with_value (help : option str) (words : list value) : cmd :=
  Cmd (s "prog") None [] None XInherit XInherit XInherit
    [MkOpt [s "--opt"] None help (Some words) false None false XInherit false false None None SepInherit] [] None.

(** JSON: the keys of a dictionary of choices that are numbers come back as texts. *)
Theorem C114_number_key_refuted : exists c,
  let choices := [VDict [(VInt 1, VStr (s "one"))]] in
  c = with_value None (VStr (s "choices") :: choices) /\
  check_choices choices = Ok tt /\
  match read_text json (commandline_to_json c) with
  | Some (VList l) => dictionaries_to_commandline l = Ok (with_value None [VStr (s "choices"); VDict [(VStr (s "1"), VStr (s "one"))]])
  | _ => False
  end.
Proof. eexists. split; [reflexivity |]. split; [reflexivity |]. vm_compute. reflexivity. Qed.
Print Assumptions C114_number_key_refuted.

(** YAML: a character above 65535 comes back as two. *)
Theorem C114_surrogates_refuted : exists c,
  c = with_value (Some [128512%N]) [VStr (s "file")] /\
  read_text json (commandline_to_json c) = Some (VList (commandline_to_dictionaries c)) /\
  match read_yaml (commandline_to_yaml c) with
  | Some l => dictionaries_to_commandline l = Ok (with_value (Some [55357%N; 56832%N]) [VStr (s "file")])
  | _ => False
  end.
Proof. eexists. split; [reflexivity |]. split; vm_compute; reflexivity. Qed.
Print Assumptions C114_surrogates_refuted.

(** YAML: the float that Python writes as [1e+16] comes back as a text (JSON has it right). *)
Theorem C114_float_refuted : exists c,
  let limit x := with_value None [VStr (s "float"); VDict [(VStr (s "max"), x)]] in
  c = limit (VFloat (s "1e+16")) /\
  (forall e, check_integer_float e [TInt; TFloat] [VDict [(VStr (s "max"), VFloat (s "1e+16"))]] = Ok tt) /\
  read_text json (commandline_to_json c) = Some (VList (commandline_to_dictionaries c)) /\
  match read_yaml (commandline_to_yaml c) with
  | Some l => dictionaries_to_commandline l = Ok (limit (VStr (s "1e+16")))
  | _ => False
  end.
Proof. eexists. split; [reflexivity |]. split; [reflexivity |]. split; vm_compute; reflexivity. Qed.
Print Assumptions C114_float_refuted.
