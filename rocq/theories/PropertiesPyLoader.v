(** * Property C118: the parser of a Python file.  Statements only. *)
From Verif Require Import Base Cli PyLoader SpecPyLoader PyLoaderProofs.
Open Scope string_scope.
Open Scope list_scope.

(** C118.  If a Python file is the one that Python finds under its name, and its parsers are bound to
    names in the usual way, then its only parser without a parent is found ... (full claim: for all
    Python files) *)
Theorem C118_found_partial : forall (py : python) (dir name : str) (m : namespace) (children : nat -> list nat) (i : nat) (blacklist : list nat),
  dir <> [] -> ~ In SLASH name -> own_name py dir name ->
  py_file py (path_join dir (name ++ s ".py")) = Some (Runs m) -> usual children m -> (forall j, In j blacklist -> ~ bound m j) ->
  only_root children m i -> load_from_file py (path_join dir (name ++ s ".py")) None blacklist = Found (Parser i).
Proof. exact load_ok. Qed.
Print Assumptions C118_found_partial.
(** ... and if there is none, or more than one, no parser is chosen. *)
Theorem C118_sound_partial : forall (py : python) (dir name : str) (m : namespace) (children : nat -> list nat) (p : object) (blacklist : list nat),
  dir <> [] -> ~ In SLASH name -> own_name py dir name ->
  py_file py (path_join dir (name ++ s ".py")) = Some (Runs m) -> usual children m -> (forall j, In j blacklist -> ~ bound m j) ->
  load_from_file py (path_join dir (name ++ s ".py")) None blacklist = Found p -> exists i, p = Parser i /\ only_root children m i.
Proof. exact load_sound. Qed.
Print Assumptions C118_sound_partial.
(** C118.  With [--parser-variable] it is what the variable of the file is bound to. *)
Theorem C118_variable_partial : forall (py : python) (dir name : str) (m : namespace) (v : str) (o : object) (blacklist : list nat),
  dir <> [] -> ~ In SLASH name -> own_name py dir name ->
  py_file py (path_join dir (name ++ s ".py")) = Some (Runs m) -> NoDup (map fst m) -> In (v, o) m ->
  load_from_file py (path_join dir (name ++ s ".py")) (Some v) blacklist = Found o.
Proof.
  intros py dir name m v o blacklist Hd Hs Ho Hf Hn Hi. unfold load_from_file. rewrite (import_ok py dir name (Runs m) Hd Hs Ho Hf).
  assert (E : find (fun '(n, _) => str_eqb n v) m = Some (v, o)); [| now rewrite E].
  clear Hf. induction m as [| [n x] m IH]; [destruct Hi |]. cbn [find]. cbn [map fst] in Hn. apply NoDup_cons_iff in Hn as [Hx Hn].
  destruct (str_eqb_spec n v) as [-> | Hne].
  - destruct Hi as [Hi | Hi]; [now rewrite Hi |]. destruct Hx. change v with (fst (v, o)). now apply in_map.
  - destruct Hi as [Hi | Hi]; [congruence |]. now apply IH.
Qed.
Print Assumptions C118_variable_partial.

(** A script with a parser (1), and two sub-commands (2, 3), one of which has an alias *)
Definition script : namespace :=
  [(s "add", Parser 2); (s "argparse", Other); (s "parser", Parser 1); (s "remove", Parser 3); (s "sub", Subparsers [2; 3; 3])].
Definition script_children (i : nat) : list nat := match i with 1 => [2; 3] | _ => [] end.
Definition machine (loaded : str -> option namespace) (files : str -> option running) : python :=
  MkPython loaded [s "/usr/bin"; s "/usr/lib/python3"] files [(s "p", Parser 0)].
Definition no_modules (x : str) : option namespace := None.
Definition one (name : str) (r : running) (x : str) : option running := if str_eqb x name then Some r else None.
Example C118_example :
  let py := machine no_modules (one (s "/home/tool.py") (Runs script)) in
  own_name py (s "/home") (s "tool") /\ usual script_children script /\ only_root script_children script 1 /\
  load_from_file py (s "/home/tool.py") None [0] = Found (Parser 1).
Proof.
  split; [| split; [| split; [| reflexivity]]].
  - split; [cbn; intuition discriminate |]. split; [reflexivity |]. intros d [<- | [<- | []]] _; reflexivity.
  - split; [| split; [| split]].
    + intros n n' i H1 H2. cbn in H1, H2. intuition congruence.
    + cbn [map fst script]. repeat constructor; cbn; intuition discriminate.
    + intros i j _ Hj. exists (s "sub"), [2; 3; 3]. split; [cbn; tauto |]. destruct j as [| [| j]]; [destruct Hj | | destruct Hj]. cbn in Hj. cbn. tauto.
    + intros n l i H Hi. exists 1. cbn in H. destruct H as [H | [H | [H | [H | [H | []]]]]]; try discriminate. injection H as <- <-. cbn in Hi. cbn. tauto.
  - split; [split; [exists (s "parser"); cbn; tauto |] |].
    + intros j Hj. destruct j as [| [| j]]; [destruct Hj | | destruct Hj]. cbn in Hj. intuition discriminate.
    + intros j [[n Hn] Hr]. cbn in Hn. specialize (Hr 1). cbn in Hr. destruct Hn as [H | [H | [H | [H | [H | []]]]]]; try discriminate; injection H as _ <-; [exfalso | | exfalso]; tauto.
Qed.

(** Violation of C118: a parser with two names is counted twice ... *)
Theorem C118_two_names_refuted : exists (py : python) (m : namespace), own_name py (s "/home") (s "tool") /\ py_file py (s "/home/tool.py") = Some (Runs m) /\
  only_root (fun _ => []) m 1 /\ load_from_file py (s "/home/tool.py") None [0] = NotFound (CrazyError (s "Found too many ArgumentParser objects")).
Proof.
  exists (machine no_modules (one (s "/home/tool.py") (Runs [(s "p", Parser 1); (s "parser", Parser 1)]))). eexists. split.
  { split; [cbn; intuition discriminate |]. split; [reflexivity |]. intros d [<- | [<- | []]] _; reflexivity. }
  split; [reflexivity |]. split; [| reflexivity]. split; [split; [exists (s "p"); now left | intros j []] |].
  intros j [[n Hn] _]. cbn in Hn. intuition congruence.
Qed.
Print Assumptions C118_two_names_refuted.
(** ... and a sub-parser is taken for a parser without a parent if what [add_subparsers] answered has
    no name. *)
Theorem C118_subparser_refuted : exists (py : python) (m : namespace) (children : nat -> list nat), own_name py (s "/home") (s "tool") /\
  py_file py (s "/home/tool.py") = Some (Runs m) /\ only_root children m 1 /\
  load_from_file py (s "/home/tool.py") None [0] = NotFound (CrazyError (s "Found too many ArgumentParser objects")).
Proof.
  exists (machine no_modules (one (s "/home/tool.py") (Runs [(s "add", Parser 2); (s "parser", Parser 1)]))). eexists. exists (fun i => match i with 1 => [2] | _ => [] end). split.
  { split; [cbn; intuition discriminate |]. split; [reflexivity |]. intros d [<- | [<- | []]] _; reflexivity. }
  split; [reflexivity |]. split; [| reflexivity]. split; [split; [exists (s "parser"); right; now left | intros [| [| j]] Hj; cbn in Hj; intuition discriminate] |].
  intros j [[n Hn] Hr]. specialize (Hr 1). cbn in Hn, Hr. destruct Hn as [H | [H | []]]; injection H as _ <-; [exfalso; tauto | reflexivity].
Qed.
Print Assumptions C118_subparser_refuted.

(** Violation of C118: if a module of that name is loaded already, or is in a directory of
    [sys.path], then the parser of that module is taken and not the one of the file. *)
Theorem C118_wrong_file_refuted : exists (py py' : python) (m : namespace),
  py_file py (s "/home/test.py") = Some (Runs m) /\ py_file py' (s "/home/test.py") = Some (Runs m) /\ only_root (fun _ => []) m 1 /\ ~ bound m 7 /\
  load_from_file py (s "/home/test.py") None [0] = Found (Parser 7) /\ load_from_file py' (s "/home/test.py") None [0] = Found (Parser 7).
Proof.
  pose (m := [(s "parser", Parser 1)]). pose (other := [(s "parser", Parser 7)]).
  exists (machine (fun x => if str_eqb x (s "test") then Some other else None) (one (s "/home/test.py") (Runs m))),
    (machine no_modules (fun x => if str_eqb x (s "/home/test.py") then Some (Runs m) else if str_eqb x (s "/usr/lib/python3/test.py") then Some (Runs other) else None)), m.
  split; [reflexivity |]. split; [reflexivity |]. split; [split; [split; [exists (s "parser"); now left | intros j []] |] |].
  - intros j [[n [H | []]] _]. now injection H as _ <-.
  - split; [intros [n [H | []]]; discriminate H | split; reflexivity].
Qed.
Print Assumptions C118_wrong_file_refuted.

(** Violation of C118: the parser of a file that cannot be imported, for instance because there is a
    dot in its name, is never found: whatever the file binds, the names of the program itself are
    searched. *)
Theorem C118_fallback_refuted : forall (m : namespace) (variable : option str),
  load_from_file (machine no_modules (one (s "/home/my.tool.py") (Runs m))) (s "/home/my.tool.py") variable [0] =
  load_from_file (machine no_modules (one (s "/home/my.tool.py") (Runs []))) (s "/home/my.tool.py") variable [0] /\
  load_from_file (machine no_modules (one (s "/home/my.tool.py") (Runs m))) (s "/home/my.tool.py") None [0] =
    NotFound (CrazyError (s "Could not find any ArgumentParser object")).
Proof. intros m variable. split; reflexivity. Qed.
Print Assumptions C118_fallback_refuted.

(** Violation of C118: if the file ends itself, for instance by parsing the arguments of the program,
    then the program ends with it. *)
Theorem C118_exit_refuted : exists py : python, own_name py (s "/home") (s "tool") /\ py_file py (s "/home/tool.py") = Some Exits /\
  load_from_file py (s "/home/tool.py") None [0] = Ended.
Proof.
  exists (machine no_modules (one (s "/home/tool.py") Exits)). split; [| split; reflexivity].
  split; [cbn; intuition discriminate |]. split; [reflexivity |]. intros d [<- | [<- | []]] _; reflexivity.
Qed.
Print Assumptions C118_exit_refuted.

(** Violation of C118: the program cannot be used on itself (crazy-complete 28-30), because its own
    parser is left out wherever it is found. *)
Theorem C118_itself_refuted : exists (py : python) (m : namespace), py_file py (s "/usr/bin/crazy-complete") = Some (Runs m) /\ only_root (fun _ => []) m 0 /\
  load_from_file py (s "/usr/bin/crazy-complete") None [0] = NotFound (CrazyError (s "Could not find any ArgumentParser object")).
Proof.
  exists (machine no_modules (one (s "/usr/bin/crazy-complete") (Runs [(s "application", Other); (s "p", Parser 0)]))). eexists.
  split; [reflexivity |]. split; [| reflexivity]. split; [split; [exists (s "p"); right; now left | intros j []] |].
  intros j [[n Hn] _]. cbn in Hn. destruct Hn as [H | [H | []]]; [discriminate H | now injection H as _ <-].
Qed.
Print Assumptions C118_itself_refuted.
