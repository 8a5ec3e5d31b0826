(** * Property C117: what the program reads and writes.  Statements only. *)
From Verif Require Import Base Value StrUtils Cli DictSource SchemeValidator Generation PropertiesScheme Application SpecOutput SpecApplication OutputProofs ApplicationProofs.
Open Scope string_scope.
Open Scope list_scope.

(** C117.  If the program makes a script and succeeds, then it changed exactly what it was asked to
    change, and the script is the one for the definition it loaded ... *)
Theorem C117_success : forall (w : world) (op : options) (l : list effect),
  is_script (op_shell op) = true -> exclusive op -> generate w op = (l, Ok tt) ->
  exists c text file, snd (load_definition_file w op) = Ok c /\ w_script w (op_shell op) c = Ok text /\
    looked_up (w_completions_dir w (op_shell op)) (op_shell op) (c_prog c) file /\ changes l = done (asked op file) text.
Proof.
  intros w op l Hs He H. destruct (generate_script w op l Hs He H) as (c & text & H1 & H2 & H3).
  exists c, text, (completion_file w (op_shell op) (c_prog c)). repeat (split; [assumption |]). split; [| exact H3].
  destruct (op_shell op); try discriminate Hs; unfold looked_up, completion_file;
    [destruct (w_completions_dir w Bash); reflexivity | destruct (w_completions_dir w Fish); reflexivity | reflexivity].
Qed.
Print Assumptions C117_success.
(** ... and so it is if it makes a definition, if it was not asked to install it (full claim: always). *)
Theorem C117_definition_partial : forall (w : world) (op : options) (l : list effect),
  is_script (op_shell op) = false -> op_install op = false -> op_uninstall op = false -> generate w op = (l, Ok tt) ->
  exists text installed, definition_text w op text /\ changes l = done (asked op installed) text.
Proof. exact generate_text. Qed.
Print Assumptions C117_definition_partial.

(** C117.  If it fails, nothing was printed, written or removed, if what it would write can be
    encoded (full claim: always). *)
Theorem C117_failure_partial : forall (w : world) (op : options) (l : list effect) (e : exn),
  all_encodable w -> generate w op = (l, Err e) -> changes l = [].
Proof. exact generate_err. Qed.
Print Assumptions C117_failure_partial.

(** C117.  Python files are run only if that was asked for. *)
Theorem C117_python : forall (w : world) (op : options) (f : str),
  In (Loaded KPython f) (fst (generate w op)) -> op_input_type op = InPython /\ f = op_definition_file op.
Proof. exact python_only. Qed.
Print Assumptions C117_python.

(** C117.  Without [--input-type] the extension decides, in capital letters or not: [json] is JSON,
    [yaml] and [yml] are YAML; with any other one nothing is read and the user is told. *)
Theorem C117_extension : forall (w : world) (op : options) (ext : str),
  op_input_type op = InAuto -> has_extension (op_definition_file op) ext ->
  (lower ext = s "json" -> load_definition_file w op = ([Loaded KJson (op_definition_file op)], w_load w KJson (op_definition_file op))) /\
  (lower ext = s "yaml" \/ lower ext = s "yml" -> load_definition_file w op = ([Loaded KYaml (op_definition_file op)], w_load w KYaml (op_definition_file op))) /\
  (~ In (lower ext) [s "json"; s "yaml"; s "yml"] -> exists m, load_definition_file w op = ([], Err (CrazyError m))).
Proof.
  intros w op ext Ht Hx. unfold load_definition_file. rewrite Ht, (file_type_lower _ _ Hx). split; [| split].
  - intros ->. reflexivity.
  - intros [-> | ->]; reflexivity.
  - intros H. destruct (str_eqb_spec (lower ext) (s "json")) as [E |]; [destruct H; rewrite E; cbn; tauto |].
    destruct (str_eqb_spec (lower ext) (s "yaml")) as [E |]; [destruct H; rewrite E; cbn; tauto |].
    destruct (str_eqb_spec (lower ext) (s "yml")) as [E |]; [destruct H; rewrite E; cbn; tauto |]. cbn [orb].
    destruct (str_eqb (lower ext) (s "py")); [now eexists |]. destruct (str_eqb (lower ext) []); now eexists.
Qed.
Print Assumptions C117_extension.

(** C117.  A batch file does what its lines do, one after the other, if none of them ends the
    program (full claim: always) ... *)
Theorem C117_batch_partial : forall (split : str -> res (list str)) (app : list str -> list effect * ending) (content : str) (cs : list str) (effs : list (list effect)),
  commands (split_c LF content) cs ->
  Forall2 (fun c l => exists args, split c = Ok args /\ app args = (l, Finished)) cs effs ->
  run_lines split app (batch_lines content) = (concat effs, Exited).
Proof.
  intros split app content cs effs Hc H. unfold batch_lines. rewrite (commands_ok _ _ Hc). rewrite <- (app_nil_r cs), (run_all split app cs effs H []).
  cbn. now rewrite app_nil_r.
Qed.
Print Assumptions C117_batch_partial.
(** ... and it stops with the first one that fails. *)
Theorem C117_batch_failure : forall (split : str -> res (list str)) (app : list str -> list effect * ending) (content : str) (cs : list str) (effs : list (list effect))
    (c : str) (args : list str) (rest : list str) (l : list effect) (e : exn),
  commands (split_c LF content) (cs ++ c :: rest) ->
  Forall2 (fun c l => exists args, split c = Ok args /\ app args = (l, Finished)) cs effs ->
  split c = Ok args -> app args = (l, Raised e) ->
  run_lines split app (batch_lines content) = (concat effs ++ l, Raised e).
Proof.
  intros split app content cs effs c args rest l e Hc H E1 E2. unfold batch_lines. rewrite (commands_ok _ _ Hc), (run_all split app cs effs H (c :: rest)).
  cbn [run_lines]. now rewrite E1, E2.
Qed.
Print Assumptions C117_batch_failure.

(** ** Examples *)

Definition tool (name : str) : cmd := Cmd name None [] None XFalse XFalse XFalse [] [] None.
Definition here (name : str) (text : str) : world :=
  MkWorld (fun _ _ => Ok (tool name)) (fun _ => Err (CrazyError [])) (fun _ => text) (fun _ => text) (fun _ _ => Ok text) (fun _ => None)
    (fun _ => Ok tt) (fun _ => Ok tt).
Definition op_example : options := MkOptions Bash (s "defs/my.Tool.YML") InAuto (Some (s "out.sh")) false false.
Example C117_example :
  is_script (op_shell op_example) = true /\ exclusive op_example /\ has_extension (op_definition_file op_example) (s "YML") /\
  generate (here (s "tool") (s "script")) op_example = ([Loaded KYaml (s "defs/my.Tool.YML"); Emptied (s "out.sh"); Wrote (s "out.sh") (s "script")], Ok tt) /\
  generate (here (s "tool") (s "script")) (MkOptions Zsh (s "a.json") InAuto None true false) =
    ([Loaded KJson (s "a.json"); Emptied (s "/usr/share/zsh/site-functions/_tool"); Wrote (s "/usr/share/zsh/site-functions/_tool") (s "script")], Ok tt) /\
  generate (here (s "tool") (s "script")) (MkOptions Fish (s "a.py") InAuto None false false) =
    ([], Err (CrazyError (s "Reading Python files must be enabled by --input-type=python"))) /\
  all_encodable (here (s "tool") (s "script")).
Proof.
  split; [reflexivity |]. split; [split; discriminate |]. split.
  { exists (s "defs/"), (s "my.Tool"). split; [reflexivity |]. split; [right; exists (s "defs"); reflexivity |]. repeat split; cbn; intuition discriminate. }
  split; [reflexivity |]. split; [reflexivity |]. split; [reflexivity |]. split; [discriminate |]. split; [reflexivity |]. split; [reflexivity |].
  intros sh c t E. injection E as <-. reflexivity.
Qed.

(** Lines of words: enough of a shell for the examples *)
Definition parse_example (args : list str) : ending + options :=
  match args with
  | [file; o; out] => if str_eqb o (s "-o") then inr (MkOptions Bash file InYaml (Some out) false false) else inl (Raised (CrazyError []))
  | [x] => if str_eqb x (s "--version") then inl Exited else inl (Raised (CrazyError []))
  | _ => inl (Raised (CrazyError []))
  end.
Definition batch_example (args : list str) : option str :=
  match args with [x; f] => if str_eqb x (s "--batch") then Some f else None | _ => None end.
Definition run_example (files : str -> res str) : nat -> list str -> list effect * ending :=
  run_app (here (s "tool") (s "script")) (fun l => Ok (split_ws l)) (fun _ => false) batch_example files parse_example.
Definition one_file (name content : str) (x : str) : res str := if str_eqb x name then Ok content else Err (CrazyError []).
Example C117_batch_example :
  run_example (one_file (s "all") (s "# both
a.yaml -o a.sh

  b.yaml -o b.sh  ")) 1 [s "--batch"; s "all"] =
  ([Loaded KYaml (s "a.yaml"); Emptied (s "a.sh"); Wrote (s "a.sh") (s "script"); Loaded KYaml (s "b.yaml"); Emptied (s "b.sh"); Wrote (s "b.sh") (s "script")], Exited).
Proof. reflexivity. Qed.

(** ** Violations *)

(** Violation of C117: asked to install a definition, the program prints it. *)
Theorem C117_install_refuted : exists (w : world) (op : options) (l : list effect) (text : str),
  exclusive op /\ op_install op = true /\ generate w op = (l, Ok tt) /\ changes l = [Printed text].
Proof.
  exists (here (s "tool") (s "text")), (MkOptions ToYaml (s "a.json") InAuto None true false). do 2 eexists.
  split; [split; [split; reflexivity | discriminate] |]. split; [reflexivity |]. split; reflexivity.
Qed.
Print Assumptions C117_install_refuted.

(** Violation of C117: if the script has half of a surrogate pair (from a JSON file), the program fails
    after it has emptied the file. *)
Theorem C117_emptied_refuted : exists (w : world) (op : options) (l : list effect) (e : exn) (f : str),
  exclusive op /\ op_output_file op = Some f /\ generate w op = (l, Err e) /\ changes l = [Emptied f].
Proof.
  exists (here (s "tool") [55296%N]), op_example. do 3 eexists. split; [split; discriminate |]. split; [reflexivity |]. split; reflexivity.
Qed.
Print Assumptions C117_emptied_refuted.

(** Violation of C117: a program name with slashes is accepted, and its script is installed outside
    the directory for completions. *)
Theorem C117_directory_refuted : exists (c : cmd) (w : world) (op : options) (l : list effect) (text : str),
  enhance_commandline e0 default_config c = Ok c /\ exclusive op /\ op_install op = true /\ w_load w KJson (op_definition_file op) = Ok c /\
  generate w op = (l, Ok tt) /\ In (Wrote (s "/usr/share/bash-completion/completions/../../../bin/ls") text) l.
Proof.
  exists (tool (s "../../../bin/ls")), (here (s "../../../bin/ls") (s "text")), (MkOptions Bash (s "a.json") InAuto None true false). do 2 eexists.
  split; [vm_compute; reflexivity |]. split; [split; [split; reflexivity | discriminate] |]. split; [reflexivity |]. split; [reflexivity |]. split; [reflexivity |].
  right. right. left. reflexivity.
Qed.
Print Assumptions C117_directory_refuted.

(** Violation of C117: a line that uses another batch file, or asks for the version, ends the whole
    batch as if all had been done. *)
Theorem C117_batch_ends_refuted : exists (files : str -> res str) (content : str) (l : list effect),
  files (s "all") = Ok content /\ In (s "b.yaml -o b.sh") (split_c LF content) /\
  run_example files 2 [s "--batch"; s "all"] = (l, Exited) /\ In (Wrote (s "a.sh") (s "script")) l /\ ~ In (Wrote (s "b.sh") (s "script")) l.
Proof.
  exists (fun x => if str_eqb x (s "all") then Ok (s "--batch more
b.yaml -o b.sh") else Ok (s "a.yaml -o a.sh")). do 2 eexists. split; [reflexivity |]. split; [right; left; reflexivity |]. split; [vm_compute; reflexivity |].
  split; [vm_compute; tauto | vm_compute; intuition discriminate].
Qed.
Print Assumptions C117_batch_ends_refuted.
(** Violation of C117: a batch file that uses itself never ends. *)
Theorem C117_batch_loop_refuted : exists files : str -> res str, forall fuel,
  run_example files fuel [s "--batch"; s "all"] = ([], Raised OutOfFuel).
Proof.
  exists (one_file (s "all") (s "--batch all")). induction fuel as [| fuel IH]; [reflexivity |].
  change (run_example (one_file (s "all") (s "--batch all")) (S fuel) [s "--batch"; s "all"]) with
    (match run_example (one_file (s "all") (s "--batch all")) fuel [s "--batch"; s "all"] with
     | (l1, Finished) => (l1 ++ [], Exited) | r => r end).
  now rewrite IH.
Qed.
Print Assumptions C117_batch_loop_refuted.
