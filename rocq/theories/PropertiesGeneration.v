(** * The theorems about configurations and generation. *)
From Verif Require Import Base Dict Value StrUtils Cli DictSource SchemeValidator SpecCli CliProofs
  CliMore CliExamples SpecScheme PropertiesScheme Generation SpecGeneration GenerationProofs
  ShellCompleter ShellCompleterProofs.
Local Open Scope string_scope.
Local Open Scope list_scope.

(** ** C27 *)

(** A configuration keeps the tree, fills in exactly the settings left open and changes only what
    it switches off. *)
Theorem C27_configured : forall e cf root r, built root ->
  enhance_commandline e cf root = Ok r -> configured cf root r.
Proof.
  intros e cf root r B H. apply (enhance_iff e cf root r B) in H as (-> & _).
  exact (apply_configured cf root).
Qed.
Print Assumptions C27_configured.

(** No command at any depth, and no option, keeps a setting that is left open. *)
Theorem C27_resolved : forall e cf root r ps c, built root ->
  enhance_commandline e cf root = Ok r -> located r ps c ->
  c_abbrev_cmds c <> XInherit /\ c_abbrev_opts c <> XInherit /\ c_inherit c <> XInherit /\
  forall o, In o (c_options c) -> o_repeatable o <> XInherit /\ o_sep o <> SepInherit.
Proof.
  intros e cf root r ps c B H L. apply (enhance_iff e cf root r B) in H as (-> & _).
  apply apply_located in L as (qs & d & _ & _ & ->).
  exact (configured_resolved cf d _ (apply_configured cf d)).
Qed.
Print Assumptions C27_resolved.

(** Applying the configuration again, or another one that switches nothing off, changes
    nothing. *)
Theorem C27_idempotent : forall cf cf' root, (cf' = cf \/ nothing_disabled cf') ->
  apply_config cf' (apply_config cf root) = apply_config cf root.
Proof. intros; apply apply_again; assumption. Qed.
Print Assumptions C27_idempotent.

Definition abbreviating : config := MkConfig true true true true Equals false false false false false.
Definition opt_q : opt :=
  MkOpt [s "-q"; s "--quiet"] None None None false None false XInherit false false None None SepInherit.
Definition opt_v : opt :=
  MkOpt [s "--verbose"] None None None false None false XFalse false false (Some (s "has_option --quiet")) None SepBoth.
Definition sub_add : cmd := Cmd (s "add") None [] None XFalse XInherit XInherit [opt_q] [] None.
Definition tool : cmd :=
  Cmd (s "tool") None [] None XInherit XFalse XTrue [opt_q; opt_v] [] (Some [sub_add]).
Lemma tool_built : built tool.
Proof. by_copy. Qed.

Example C27_example :
  enhance_commandline e0 abbreviating tool =
  Ok (let q := MkOpt [s "-q"; s "--quiet"] None None None false None false XTrue false false None
                 None SepEquals in
      Cmd (s "tool") None [] None XTrue XFalse XTrue [q; opt_v] []
        (Some [Cmd (s "add") None [] None XFalse XTrue XTrue [q] [] None])).
Proof. vm_compute. reflexivity. Qed.

(** ** C28 *)

(** A definition is accepted under a configuration exactly if it is accepted under the default
    configuration (ignoring conditions if the configuration does) and no option of the program
    or of its direct subcommands becomes both hidden and repeatable.  Missing from the full
    claim: that case, see below. *)
Theorem C28_accepted_exactly_partial : forall e cf root, built root ->
  (exists r, enhance_commandline e cf root = Ok r) <->
  (exists r, enhance_commandline e (plain (cf_disabled_when cf)) root = Ok r) /\
  forall ps c o, located root ps c -> short_path ps c -> In o (c_options c) -> no_conflict cf o.
Proof. exact accepted_iff. Qed.
Print Assumptions C28_accepted_exactly_partial.

(** Ignoring conditions does not make a definition unacceptable. *)
Theorem C28_ignoring_conditions : forall e root, built root ->
  (exists r, enhance_commandline e (plain false) root = Ok r) ->
  (exists r, enhance_commandline e (plain true) root = Ok r).
Proof. exact accepted_ignoring_when. Qed.
Print Assumptions C28_ignoring_conditions.

Example C28_example :
  (forall ps c o, located tool ps c -> short_path ps c -> In o (c_options c) ->
     no_conflict abbreviating o) /\
  exists r, enhance_commandline e0 abbreviating tool = Ok r.
Proof.
  split; [|eexists; vm_compute; reflexivity].
  apply (C28_accepted_exactly_partial e0 abbreviating tool tool_built).
  eexists. vm_compute. reflexivity.
Qed.

Definition opt_h : opt :=
  MkOpt [s "--secret"] None None None false None false XInherit false true None None SepInherit.
Definition secret : cmd := Cmd (s "tool") None [] None XInherit XInherit XInherit [opt_h] [] None.

(** A definition with a hidden option is rejected once options are repeatable by default. *)
Theorem C28_repeatable_options_refuted :
  exists e cf root, built root /\ (exists r, enhance_commandline e default_config root = Ok r) /\
    cf = MkConfig false false true false Both false false false false false /\
    exists x, enhance_commandline e cf root = Err x.
Proof.
  exists e0, (MkConfig false false true false Both false false false false false), secret.
  split; [by_copy|]. split; [eexists; vm_compute; reflexivity|]. split; [reflexivity|].
  eexists. vm_compute. reflexivity.
Qed.
Print Assumptions C28_repeatable_options_refuted.

(** ** C44 *)

(** Generation leaves the caller's definition as it was, and therefore asks for the same things
    the next time, if no list of files or directories has its own separator or rule for
    duplicates. *)
Theorem C44_unchanged_partial : forall root, plain_lists root -> snd (generate root) = root.
Proof. exact generate_unchanged. Qed.
Print Assumptions C44_unchanged_partial.

(** Every completer of the definition, at any depth inside of others, of every option and positional
    argument of every command, is asked with its arguments. *)
Theorem C44_asked : forall root ps c v enc name args, located root ps c ->
  (exists o l, In o (c_options c) /\ o_complete o = Some l /\ v = VList l) \/ (exists p, In p (c_positionals c) /\ v = VList (p_complete p)) ->
  inside [] v enc (VList (VStr name :: args)) -> In (name, args) (fst (generate root)).
Proof.
  intros root ps c v enc name args Hl Hv Hi. apply (asked_commands root ps c Hl). apply asked_inside in Hi. rewrite generate_calls, !in_app_iff.
  destruct Hv as [(o & l & Ho & El & ->) | (p & Hp & ->)]; [left; now apply (asked_options _ o l Ho El) | right; left; now apply (asked_positionals _ p Hp)].
Qed.
Print Assumptions C44_asked.

Definition opt_files (d : dict) : opt :=
  MkOpt [s "--files"] None None
    (Some [VStr (s "prefix"); VStr (s "@"); VList [VStr (s "file_list"); VDict d]])
    false None false XInherit false false None None SepInherit.
Definition with_files (d : dict) : cmd :=
  Cmd (s "tool") None [] None XInherit XInherit XInherit [opt_files d] [] None.

Lemma inside_list enc v enc' x : inside enc v enc' x ->
  x = v \/ exists y enc2, In y (children v) /\ inside enc2 y enc' x.
Proof.
  induction 1 as [|enc' x y H IH Hy]; [left; reflexivity|]. right.
  destruct IH as [->|(z & enc2 & Hz & Hi)].
  - exists y. eexists. split; [exact Hy|constructor].
  - exists z, enc2. split; [exact Hz|]. apply inside_child; assumption.
Qed.

Example C44_example : plain_lists (with_files [entry "directory" (text "/tmp")]) /\
  fst (generate (with_files [entry "directory" (text "/tmp")])) =
    [(s "prefix", [text "@"; VList [text "file_list"; VDict [entry "directory" (text "/tmp")]]]);
     (s "file_list", [VDict [entry "directory" (text "/tmp")]]);
     (s "list", [VList [text "file"; VDict [entry "directory" (text "/tmp")]];
                 VDict [entry "separator" (text ","); entry "duplicates" (VBool false)]])].
Proof.
  split; [|vm_compute; reflexivity]. intros ps c L.
  apply located_cases in L as [[-> ->]|(x & qs & L1 & L2 & L3)]; [|destruct L1].
  split; [|intros p []]. intros o l [<-|[]] E. injection E as <-.
  intros enc x Hi. apply inside_list in Hi as [->|(y & enc2 & Hy & Hi)].
  - intros (n & d & r & E & [->| ->] & _); discriminate E.
  - destruct Hy as [<-|[]]. apply inside_list in Hi as [->|(z & enc3 & [] & _)].
    intros (n & d & r & E & _ & H). injection E as E1 E2 E3. subst d.
    destruct H as [H|H]; apply H; reflexivity.
Qed.

(** The separator of a list of files is used by the first generation and removed from the
    caller's definition: the second one uses the comma. *)
Theorem C44_separator_lost_refuted :
  exists root, built root /\ (exists r, enhance_commandline e0 default_config root = Ok r) /\
    let '(calls, root') := generate root in
    root' <> root /\
    In (s "list", [VList [text "file"; VDict []];
                   VDict [entry "separator" (text ":"); entry "duplicates" (VBool false)]]) calls /\
    In (s "list", [VList [text "file"; VDict []];
                   VDict [entry "separator" (text ","); entry "duplicates" (VBool false)]])
       (fst (generate root')) /\
    fst (generate root') <> calls.
Proof.
  exists (with_files [entry "separator" (text ":")]).
  split; [by_copy|]. split; [eexists; vm_compute; reflexivity|].
  vm_compute. split; [discriminate|]. split; [auto|]. split; [auto|discriminate].
Qed.
Print Assumptions C44_separator_lost_refuted.
