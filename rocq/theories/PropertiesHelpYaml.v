(** * Property C115: the definition that is made from a help text.  Statements only. *)
From Verif Require Import Base Value SchemeValidator HelpParser SpecHelp HelpProofs HelpConverter PropertiesHelp HelpYaml YamlText SpecYamlText HelpYamlProofs PropertiesScheme.
Open Scope string_scope.
Open Scope list_scope.

(** C115.  If the help text has only characters that YAML allows, all below 65536, and ends its lines with
    line feeds, and if the name of the program has only visible ASCII characters but no double quotes and
    backslashes, then a YAML reader finds in the definition that is made from it the name of the program and
    the options that were found, in their order: and the lines that were not understood, whatever they look
    like, mean nothing.  (Full claim: all help texts.) *)
Theorem C115_definition_partial : forall x prog dicts,
  convert x = Ok (prog, dicts) ->
  (forall c, In c x -> allowed_char c = true /\ (c < 65536)%N /\ (ends_line c = true -> c = LF)) ->
  (forall c, In c prog -> (32 <= c <= 126)%N /\ c <> DQ /\ c <> BS) ->
  exists text, convert_to_yaml x = Ok text /\
  read_yaml text = Some [VDict [(VStr (s "prog"), VStr prog);
                                (VStr (s "help"), VStr (s "<Program description here>"));
                                (VStr (s "options"), match dicts with [] => VNone | _ => VList dicts end)]].
Proof.
  intros x prog dicts Hc Hx Hp. unfold convert in Hc. destruct (get_program_name_from_help x) as [e | p] eqn:E1; [discriminate |]. cbn [bind] in Hc.
  destruct (parse x) as [e | is] eqn:E2; [discriminate |]. cbn [bind] in Hc. injection Hc as -> <-.
  pose proof (C36_nothing_lost x is E2) as T. destruct (items_all is x T) as [C W].
  - intros c Hc. destruct (Hx c Hc) as (A & B & D). unfold text_char. rewrite A. apply N.ltb_lt in B. unfold yaml_char. rewrite B. cbn [andb].
    destruct (ends_line c); [| reflexivity]. rewrite (D eq_refl). reflexivity.
  - apply (help_yaml x prog is E1 E2); [| exact W | exact C]. apply forallb_forall. intros c Hc. destruct (Hp c Hc) as ([A B] & D1 & D2). unfold plain_char. rewrite !andb_true_iff.
    repeat split; [now apply N.leb_le | now apply N.leb_le | now apply negb_true_iff, N.eqb_neq | now apply negb_true_iff, N.eqb_neq].
Qed.
Print Assumptions C115_definition_partial.

Example C115_example :
  (exists dicts, convert (help_text help_lines) = Ok (s "prog", dicts) /\ List.length dicts = 3) /\
  (forall c, In c (help_text help_lines) -> allowed_char c = true /\ (c < 65536)%N /\ (ends_line c = true -> c = LF)) /\
  (forall c, In c (s "prog") -> (32 <= c <= 126)%N /\ c <> DQ /\ c <> BS).
Proof.
  split; [eexists; split; [vm_compute; reflexivity | reflexivity] |]. split.
  - intros c Hc. assert (forallb (fun c => allowed_char c && (c <? 65536)%N && implb (ends_line c) (N.eqb c LF)) (help_text help_lines) = true) as K by (vm_compute; reflexivity).
    rewrite forallb_forall in K. specialize (K c Hc). rewrite !andb_true_iff in K. destruct K as [[A B] D]. split; [exact A |]. split; [now apply N.ltb_lt |].
    intros E. rewrite E in D. now apply N.eqb_eq.
  - intros c Hc. vm_compute in Hc. repeat (destruct Hc as [<- | Hc]; [repeat split; vm_compute; discriminate |]). destruct Hc.
Qed.

(** A program name with a backslash: [Usage: C:\tools [options]] defines the program [C:<TAB>ools]. *)
Theorem C115_backslash_refuted :
  let x := s "Usage: C:\tools [options]" ++ [LF] in
  exists dicts text, convert x = Ok (s "C:\tools", dicts) /\ convert_to_yaml x = Ok text /\
  read_yaml text = Some [VDict [(VStr (s "prog"), VStr (s "C:" ++ [TAB] ++ s "ools"));
                                (VStr (s "help"), VStr (s "<Program description here>")); (VStr (s "options"), VNone)]].
Proof. eexists _, _. split; [vm_compute; reflexivity |]. split; vm_compute; reflexivity. Qed.
Print Assumptions C115_backslash_refuted.

(** One in quotes: the definition cannot be read. *)
Theorem C115_quotes_refuted :
  let x := s "Usage: ""tool"" [options]" ++ [LF] in
  exists dicts text, convert x = Ok (s """tool""", dicts) /\ convert_to_yaml x = Ok text /\ read_yaml text = None.
Proof. eexists _, _. split; [vm_compute; reflexivity |]. split; vm_compute; reflexivity. Qed.
Print Assumptions C115_quotes_refuted.

(** Nor can it if a heading is printed in bold: the escape sequences of the terminal are copied into a
    comment. *)
Theorem C115_escapes_refuted :
  let esc := [27%N] in
  let x := s "Usage: tool" ++ [LF] ++ esc ++ s "[1mOptions:" ++ esc ++ s "[0m" ++ [LF] ++ s "  --help  Show help" ++ [LF] in
  exists v text, convert x = Ok (s "tool", [v]) /\ convert_to_yaml x = Ok text /\ read_yaml text = None.
Proof. eexists _, _. split; [vm_compute; reflexivity |]. split; vm_compute; reflexivity. Qed.
Print Assumptions C115_escapes_refuted.

(** Without any options the definition has [options: null]: it passes validation, but is then refused. *)
Theorem C115_no_options_refuted :
  let x := s "Usage: tool" ++ [LF] in
  exists text v m, convert_to_yaml x = Ok text /\ read_yaml text = Some [v] /\ validate e0 [v] = Ok tt /\
  DictSource.dictionaries_to_commandline [v] = Err (CrazyError m).
Proof. eexists _, _, _. split; [vm_compute; reflexivity |]. split; [vm_compute; reflexivity |]. split; vm_compute; reflexivity. Qed.
Print Assumptions C115_no_options_refuted.
