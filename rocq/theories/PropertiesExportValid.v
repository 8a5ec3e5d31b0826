(** * Exported command lines are accepted by the validation. *)
From Coq Require Import String.
From Verif Require Import Base Dict Value StrUtils Cli DictSource SchemeValidator SpecCli CliProofs CliMore CliExamples SpecScheme SchemeProofs
  PropertiesScheme Generation SpecGeneration GenerationProofs PropertiesGeneration ExportValidProofs.
Open Scope string_scope.
Open Scope list_scope.

(** ** C136 *)

(** If a script can be generated for a command line, under a configuration that does not ignore
    conditions, then the definitions that are exported for it pass the validation. *)
Theorem C136_exported : forall e cf root r, built root -> cf_disabled_when cf = false ->
  enhance_commandline e cf root = Ok r -> validate e (commandline_to_dictionaries root) = Ok tt.
Proof.
  intros e cf root r B D H. pose proof (accepted_under e cf root r B D H) as V.
  apply (exported_iff e root); [now apply (accepted_filled e) | exact V].
Qed.
Print Assumptions C136_exported.

(** A command line is rejected by the generator's check exactly if its exported definitions are
    rejected, provided that no completer is an empty list. *)
Definition no_empty_completer (root : cmd) : Prop := forall ps c, located root ps c ->
  (forall o, In o (c_options c) -> o_complete o <> Some []) /\ (forall p, In p (c_positionals c) -> p_complete p <> []).
Theorem C136_same_check_partial : forall e root, no_empty_completer root ->
  validate_commandlines e root = Ok tt <-> validate e (commandline_to_dictionaries root) = Ok tt.
Proof.
  intros e root H. symmetry. apply exported_iff. intros [ps c] Hx _. apply visited in Hx. exact (H ps c Hx).
Qed.
Print Assumptions C136_same_check_partial.

(** Full claim: the same check for every command line.  An empty completer is rejected, but it is
    not exported. *)
Theorem C136_empty_completer_refuted : exists e root, built root /\
  (forall cf r, enhance_commandline e cf root <> Ok r) /\ validate_commandlines e root <> Ok tt /\
  validate e (commandline_to_dictionaries root) = Ok tt.
Proof.
  set (o := MkOpt [s "--file"] None None (Some []) false None false XInherit false false None None SepInherit).
  set (root := Cmd (s "tool") None [] None XInherit XInherit XInherit [o] [] None).
  assert (B : built root) by by_copy.
  exists e0, root. split; [exact B|]. split; [|split; [vm_compute; discriminate|vm_compute; reflexivity]].
  intros cf r H. apply (enhance_iff e0 cf root r B) in H as (_ & _ & H). apply validate_apply in H as [(_ & _ & _ & _ & H) _].
  destruct (H ([], root)) as (_ & K & _); [now left|vm_compute; auto|].
  destruct (K o (or_introl eq_refl)) as (_ & _ & _ & _ & C & _). destruct (C [] eq_refl) as [t Ht]. discriminate Ht.
Qed.
Print Assumptions C136_empty_completer_refuted.

(** A program with a subcommand, whose second positional is the rest of a command. *)
Definition opt_in : opt :=
  MkOpt [s "--in"; s "-i"] (Some (s "FILE")) (Some (s "Input")) (Some [VStr (s "file")]) true (Some [s "io"]) false XInherit false true
    (Some (s "has_option --quiet")) (Some (s "inputs")) SepEquals.
Definition sub_run : cmd := Cmd (s "run") None [s "r"] None XFalse XInherit XInherit [opt_q]
  [MkPos 1 (Some (s "COMMAND")) None [VStr (s "command")] false false None None;
   MkPos 2 None None [VStr (s "command_arg")] false true None None] None.
Definition runner : cmd := Cmd (s "tool") None [] None XInherit XFalse XTrue [opt_q; opt_in] [] (Some [sub_run]).
Example C136_example :
  built runner /\ cf_disabled_when (SpecGeneration.plain false) = false /\ no_empty_completer runner /\
  (exists r, enhance_commandline e0 (SpecGeneration.plain false) runner = Ok r) /\
  exists d1 d2 l, commandline_to_dictionaries runner = [VDict d1; VDict d2] /\ vget (s "positionals") d2 = Some (VList l) /\ List.length l = 2%nat.
Proof.
  split; [by_copy|]. split; [reflexivity|]. split; [|split].
  - intros ps c H. apply visited in H. destruct H as [H|[H|[]]]; injection H as <- <-; split; intros x Hx;
      repeat (destruct Hx as [<-|Hx]; [discriminate|]); destruct Hx.
  - eexists. vm_compute. reflexivity.
  - eexists _, _, _. split; [reflexivity|]. split; [vm_compute; reflexivity|reflexivity].
Qed.
