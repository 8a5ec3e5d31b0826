(** * Properties C25, C26, C54: definitions as dictionaries.  Statements only. *)
From Verif Require Import Base Value StrUtils Cli SpecCli CliExamples DictSource SpecDict DictSourceProofs.

(** C54.  Visiting a command tree reaches exactly its commands ... *)
Theorem C54_visit_complete : forall (root : cmd) (ps : list cmd) (c : cmd),
  In (ps, c) (visit_commandlines [] root) <-> located root ps c.
Proof. exact visit_iff. Qed.
Print Assumptions C54_visit_complete.

(** ... each once ... *)
Theorem C54_visit_once : forall root : cmd, built root ->
  NoDup (map (fun pc => path_of (fst pc) (snd pc)) (visit_commandlines [] root)).
Proof. exact (fun root H => visit_paths_NoDup (S (CliProofs.size root)) [] root (le_n _) (CliProofs.built_wfc root H)). Qed.
Print Assumptions C54_visit_once.

(** ... and a parent before its children. *)
Theorem C54_visit_parents_first : forall (root : cmd) a p ps c b,
  visit_commandlines [] root = a ++ (p :: ps, c) :: b -> In (ps, p) a.
Proof.
  exact (fun root a p ps c b H =>
    match visit_order (S (CliProofs.size root)) [] root (le_n _) a b p ps c H with
    | or_introl (conj E _) => match E with eq_refl => I end
    | or_intror E => E
    end).
Qed.
Print Assumptions C54_visit_parents_first.

Example C54_example : map (fun pc => path_of (fst pc) (snd pc)) (visit_commandlines [] git)
  = [[s "git"]; [s "git"; s "remote"]; [s "git"; s "remote"; s "add"]; [s "git"; s "reset"]].
Proof. vm_compute. reflexivity. Qed.

(** C25.  An expressible command tree survives the export to dictionaries and the import (full
    claim: every command tree) ... *)
Theorem C25_dictionary_round_trip_partial : forall c : cmd, built c -> expressible c ->
  dictionaries_to_commandline (commandline_to_dictionaries c) = Ok c.
Proof. exact round_trip. Qed.
Print Assumptions C25_dictionary_round_trip_partial.

(** ... and so does everything that was imported, unless it has an option with an empty
    completer. *)
Theorem C25_imported_round_trip_partial : forall (docs : list value) (c : cmd),
  dictionaries_to_commandline docs = Ok c ->
  c_prog c <> s "%defines%" ->
  (forall ps x o, located c ps x -> In o (c_options x) -> o_complete o <> Some []) ->
  dictionaries_to_commandline (commandline_to_dictionaries c) = Ok c.
Proof. exact import_export. Qed.
Print Assumptions C25_imported_round_trip_partial.

(** The full claim is false: an empty completer, which makes the option take an argument, is lost. *)
Theorem C25_dictionary_round_trip_refuted : exists c c' o o',
  built c /\ dictionaries_to_commandline (commandline_to_dictionaries c) = Ok c' /\
  c_options c = [o] /\ c_options c' = [o'] /\
  has_required_arg o = true /\ has_required_arg o' = false /\ cmd_eqb c c' = false.
Proof.
  exists (Cmd (s "prog") None [] None XInherit XInherit XInherit
            [MkOpt [s "--opt"] None None (Some []) false None false XInherit false false None None SepInherit] [] None).
  eexists. eexists. eexists. split; [by_copy|]. repeat split.
Qed.
Print Assumptions C25_dictionary_round_trip_refuted.

Lemma git_expressible : expressible git.
Proof.
  assert (H : forall ps c, located git ps c -> one_word (c_prog c) /\
    (forall o, In o (c_options c) -> o_complete o <> Some []) /\ c_subcommands c <> Some []).
  { intros ps c Hl. apply visit_iff in Hl.
    assert (HF : Forall (fun pc => one_word (c_prog (snd pc)) /\
      (forall o, In o (c_options (snd pc)) -> o_complete o <> Some []) /\ c_subcommands (snd pc) <> Some [])
      (visit_commandlines [] git)).
    { assert (W : forall w, negb (str_eqb w []) && forallb (fun c => negb (is_space c)) w = true -> one_word w).
      { intros w Hw. apply andb_true_iff in Hw as [H1 H2]. split; [intros ->; discriminate|].
        intros x Hx. rewrite forallb_forall in H2. apply H2 in Hx. apply negb_true_iff in Hx. exact Hx. }
      repeat (constructor; [split; [apply W; reflexivity|split; [|discriminate]]|]); try constructor;
        (cbn; intros o Ho; repeat (destruct Ho as [<-|Ho]; [discriminate|]); destruct Ho). }
    rewrite Forall_forall in HF. exact (HF _ Hl). }
  constructor.
  - vm_compute. discriminate.
  - intros ps c Hl. apply (H _ _ Hl).
  - intros ps c o Hl. apply (H _ _ Hl).
  - intros ps c Hl. apply (H _ _ Hl).
Qed.

Example C25_example : built git /\ expressible git /\ length (commandline_to_dictionaries git) = 4.
Proof. split; [exact git_built|]. split; [exact git_expressible|]. reflexivity. Qed.

(** C26.  A list of definitions is accepted exactly if (after defines and deprecated keys have
    been replaced) every definition is fine by itself, no path is defined twice, every parent is
    defined before its children and there is one main program. *)
Theorem C26_accepted_definitions : forall docs : list value,
  (exists c, dictionaries_to_commandline docs = Ok c) <->
  (forall v, In v (prepare docs) -> exists c, good_doc v c) /\
  NoDup (map doc_path (prepare docs)) /\
  after_parent (prepare docs) /\
  one_main (prepare docs).
Proof. exact dictionaries_ok. Qed.
Print Assumptions C26_accepted_definitions.

(** The resulting tree has exactly the defined programs, each with the attributes of its
    definition. *)
Theorem C26_imported_tree : forall (docs : list value) (c : cmd),
  dictionaries_to_commandline docs = Ok c ->
  built c /\
  (forall ps x, located c ps x ->
     exists v, In v (prepare docs) /\ doc_path v = path_of ps x /\ good_doc v (bare x)) /\
  (forall v, In v (prepare docs) -> exists ps x, located c ps x /\ doc_path v = path_of ps x).
Proof. exact dictionaries_content. Qed.
Print Assumptions C26_imported_tree.

Example C26_example :
  let doc x := VDict [(VStr (s "prog"), VStr x)] in
  (exists c, dictionaries_to_commandline [doc (s "git"); doc (s "git add"); doc (s "git remote"); doc (s "git remote add")]
             = Ok c) /\
  dictionaries_to_commandline [doc (s "git"); doc (s "git remote add"); doc (s "git remote")] = Err missing /\
  dictionaries_to_commandline [doc (s "git"); doc (s "git add"); doc (s "git add")] = Err multiple /\
  dictionaries_to_commandline [doc (s "git"); doc (s "hg")] = Err (CrazyError (s "Too many main programs defined")) /\
  prepare [doc (s "git"); doc (s "git add")] = [doc (s "git"); doc (s "git add")].
Proof. vm_compute. repeat split. eexists. reflexivity. Qed.
