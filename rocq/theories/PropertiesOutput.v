(** * Property C116: how a script registers itself, notes and included files.  Statements only. *)
From Verif Require Import Base Value StrUtils Cli DictSource SchemeValidator Generation PropertiesScheme SpecShell SpecFish Output SpecOutput OutputProofs.
Open Scope string_scope.
Open Scope list_scope.

(** C116, Bash.  The last command of the script registers the function for the program and all its
    aliases, whatever the settings and the other parts of the script are, if the names need no quotes
    and do not look like options (full claim: all names that are accepted). *)
Theorem C116_bash_partial : forall (st : settings) (helpers functions : list str) (func : str) (wrapper : option str) (names : list str),
  plain_name posix_special func -> names <> [] -> Forall (plain_name posix_special) names ->
  exists line, last_code_line (bash_script st helpers functions func wrapper names) line /\ bash_registers line func names.
Proof. intros. now apply bash_registered. Qed.
Print Assumptions C116_bash_partial.

(** C116, zsh.  With [zsh_compdef] the first line of the script names the program and its aliases, and
    the last command calls the function with what it was given ... *)
Theorem C116_zsh_autoload_partial : forall (st : settings) (helpers functions zstyles : list str) (func : str) (wrapper : option str) (names : list str),
  st_zsh_compdef st = true -> plain_name posix_special func ->
  (forall x, In x names -> x <> [] /\ forallb (fun c => negb (is_space c)) x = true /\ compdef_name x = true) ->
  compdef_line (first_line (zsh_script st helpers functions zstyles func wrapper names)) names /\
  last_code_line (zsh_script st helpers functions zstyles func wrapper names) (func ++ s " ""$@""").
Proof. intros. split; [now apply zsh_first | now apply zsh_calls]. Qed.
Print Assumptions C116_zsh_autoload_partial.
(** ... and without it the last command registers the function. *)
Theorem C116_zsh_sourced_partial : forall (st : settings) (helpers functions zstyles : list str) (func : str) (wrapper : option str) (names : list str),
  st_zsh_compdef st = false -> plain_name posix_special func -> ~ In EQ func -> names <> [] ->
  Forall (plain_name posix_special) names -> (forall x, In x names -> ~ In EQ x) ->
  exists line, last_code_line (zsh_script st helpers functions zstyles func wrapper names) line /\ zsh_registers line func names.
Proof. intros. now apply zsh_registered. Qed.
Print Assumptions C116_zsh_sourced_partial.

(** C116, fish.  The script sets [prog] to the program before it gives up what was registered for it,
    and ends with the lines that make each alias wrap the program. *)
Theorem C116_fish_partial : forall (st : settings) (helpers : list str) (prog prepare : str) (used : list (str * str)) (wraps : option str)
    (generators : list (list str)) (aliases : list str),
  plain_name fish_special prog -> harmless prepare ->
  (forall f x, In (f, x) used -> f <> [] /\ forallb is_word f = true /\ f <> s "prog" /\ harmless x) ->
  Forall (plain_name fish_special) aliases ->
  exists before header middle l,
    code_lines (fish_script st helpers prog prepare used wraps generators aliases) = before ++ header ++ middle ++ concat l /\
    fish_program prog header /\ Forall2 (fish_alias prog) aliases l.
Proof.
  intros st helpers prog prepare used wraps generators aliases Hp Hq Hu Ha.
  destruct (fish_code' st helpers prog prepare used wraps generators aliases) as [before E].
  destruct (fish_alias_lines prog aliases Hp Ha) as (l & El & Hl). rewrite El in E.
  do 4 eexists. split; [exact E |]. split; [| exact Hl]. apply fish_header_lines; [| exact Hq | exact Hu].
  destruct Hp as (_ & Hs & _). repeat split; intros Hi; discriminate (Hs _ Hi).
Qed.
Print Assumptions C116_fish_partial.

(** C116, notes.  Comments of one line and the modeline do not change what the scripts do; every
    comment is in the script ... *)
Theorem C116_notes_partial : forall (st st' : settings) (ts helpers : list str), Forall one_line (st_comments st) -> Forall one_line (st_comments st') ->
  st_included st' = st_included st -> st_zsh_compdef st' = st_zsh_compdef st -> Forall2 trimmed (st_included st) ts ->
  (forall functions func wrapper names, code_lines (bash_script st' helpers functions func wrapper names) = code_lines (bash_script st helpers functions func wrapper names) /\
     forall c, In c (st_comments st) -> In (s "# " ++ c) (split_c LF (bash_script st helpers functions func wrapper names))) /\
  (forall prog prepare used wraps generators aliases,
     code_lines (fish_script st' helpers prog prepare used wraps generators aliases) = code_lines (fish_script st helpers prog prepare used wraps generators aliases) /\
     forall c, In c (st_comments st) -> In (s "# " ++ c) (split_c LF (fish_script st helpers prog prepare used wraps generators aliases))) /\
  (forall functions zstyles func wrapper names, (forall x, In x names -> one_line x) ->
     code_lines (zsh_script st' helpers functions zstyles func wrapper names) = code_lines (zsh_script st helpers functions zstyles func wrapper names) /\
     forall c, In c (st_comments st) -> In (s "# " ++ c) (split_c LF (zsh_script st helpers functions zstyles func wrapper names))).
Proof.
  intros st st' ts helpers H H' Ei Ec Hi. assert (Hi' : Forall2 trimmed (st_included st') ts) by now rewrite Ei.
  assert (G : forall parts, (forall x, In x (comments st) -> In x parts) -> forall c, In c (st_comments st) -> In (s "# " ++ c) (split_c LF (get parts))).
  { intros parts Hs c Hc. rewrite Forall_forall in H. destruct (comment_shown st c Hc (H c Hc)) as (x & Hx & Hn & Hl).
    eapply lines_in_get; [apply Hs, Hx | exact Hn | exact Hl]. }
  repeat split; intros.
  - now rewrite (bash_code st' helpers functions func wrapper names ts), (bash_code st helpers functions func wrapper names ts).
  - apply G; [| assumption]. intros x Hx. now repeat (apply in_or_app; (now left) || right).
  - now rewrite (fish_code st' helpers prog prepare used wraps generators aliases ts), (fish_code st helpers prog prepare used wraps generators aliases ts).
  - apply G; [| assumption]. intros x Hx. now repeat (apply in_or_app; (now left) || right).
  - now rewrite (zsh_code st' helpers functions zstyles func wrapper names ts), (zsh_code st helpers functions zstyles func wrapper names ts), Ec.
  - apply G; [| assumption]. intros x Hx. now repeat (apply in_or_app; (now left) || right).
Qed.
Print Assumptions C116_notes_partial.
(** ... and the included files, without the blanks around them, come before all other commands, in
    order and complete. *)
Theorem C116_included_partial : forall (st : settings) (ts helpers : list str), Forall one_line (st_comments st) -> Forall2 trimmed (st_included st) ts ->
  (forall functions func wrapper names, exists rest, code_lines (bash_script st helpers functions func wrapper names) = flat_map code_lines ts ++ rest) /\
  (forall prog prepare used wraps generators aliases, exists rest, code_lines (fish_script st helpers prog prepare used wraps generators aliases) = flat_map code_lines ts ++ rest) /\
  (forall functions zstyles func wrapper names, (forall x, In x names -> one_line x) ->
     exists rest, code_lines (zsh_script st helpers functions zstyles func wrapper names) = flat_map code_lines ts ++ rest).
Proof.
  intros st ts helpers H Hi. repeat split; intros; eexists; [now apply bash_code | now apply fish_code | now apply zsh_code].
Qed.
Print Assumptions C116_included_partial.

Definition example_settings : settings := MkSettings [s "Generated for tool 1.2"; s "$(date)"] [s "
helper() {
  # nothing
  true
}

"] true true.
Example C116_example :
  let x := bash_script example_settings [s "f() { :; }"] [s "_tool() { :; }"] (s "_tool") None [s "tool"; s "my-tool"] in
  code_lines x = [s "helper() {"; s "  true"; s "}"; s "f() { :; }"; s "_tool() { :; }"; s "complete -F _tool tool my-tool"] /\
  In (s "# $(date)") (split_c LF x) /\
  Forall (plain_name posix_special) [s "_tool"; s "tool"; s "my-tool"] /\ Forall one_line (st_comments example_settings) /\
  first_line (zsh_script example_settings [] [] [] (s "_tool") None [s "tool"; s "my-tool"]) = s "#compdef tool my-tool" /\
  code_lines (fish_script example_settings [] (s "tool") (s "_tool__prepare") [(s "has_option", s "_tool__has_option")] None [[s "# command tool"; s "complete -c $prog -s h"]] [s "t"]) =
  [s "helper() {"; s "  true"; s "}"; s "set -l prog 'tool'"; s "set -l P '_tool__prepare'"; s "set -l has_option '_tool__has_option'";
   s "complete -c $prog -e"; s "complete -c $prog -x"; s "complete -c $prog -s h"; s "complete -c t -e"; s "complete -c t -w tool"].
Proof.
  assert (P : forall x, x <> [] -> forallb (fun c => negb (posix_special c)) x = true -> is_option x = false -> plain_name posix_special x).
  { intros x Hn Hs Ho. split; [exact Hn |]. split; [| intros r ->; discriminate Ho]. intros c Hc. rewrite forallb_forall in Hs. specialize (Hs c Hc). now destruct (posix_special c). }
  split; [reflexivity |]. split; [vm_compute; tauto |]. split; [repeat constructor; apply P; (discriminate || reflexivity) |].
  split; [unfold one_line; repeat constructor; cbn; intuition discriminate |]. split; reflexivity.
Qed.

(** Violation of C116: a comment with a line break puts a command into the script. *)
Theorem C116_comment_refuted : exists st : settings, st_included st = [] /\
  (forall helpers functions func wrapper names, In (s "of version 2") (code_lines (bash_script st helpers functions func wrapper names))) /\
  (forall helpers functions zstyles func wrapper names, In (s "of version 2") (code_lines (zsh_script st helpers functions zstyles func wrapper names))) /\
  (forall helpers prog prepare used wraps generators aliases, In (s "of version 2") (code_lines (fish_script st helpers prog prepare used wraps generators aliases))).
Proof.
  exists (MkSettings [s "Completions" ++ [LF] ++ s "of version 2"] [] true true). split; [reflexivity |].
  assert (G : forall parts, In (s "# Completions" ++ [LF] ++ s "of version 2") parts -> In (s "of version 2") (code_lines (get parts))).
  { intros parts Hi. rewrite code_get. apply in_flat_map. eexists. split; [exact Hi |]. vm_compute. tauto. }
  split; [| split]; intros; apply G; apply in_or_app; right; [left; reflexivity | apply in_or_app; right; left; reflexivity | left; reflexivity].
Qed.
Print Assumptions C116_comment_refuted.

(** Violation of C116: a program called [r&d] is accepted, but the command that should register it is
    not one for Bash; neither is what sets [prog] in fish for a program called [it's]. *)
Theorem C116_name_refuted : exists (c c' : cmd) (it : cmd), enhance_commandline e0 default_config c = Ok c /\ enhance_commandline e0 default_config it = Ok c' /\ 
  (forall st helpers functions wrapper names, names = c_prog c :: c_aliases c ->
     exists line, last_code_line (bash_script st helpers functions (s "_r_d") wrapper names) line /\ posix_words line = None) /\
  (forall st helpers prepare used wraps generators aliases,
     exists line, In line (code_lines (fish_script st helpers (c_prog c') prepare used wraps generators aliases)) /\
       starts_with (s "set -l prog ") line = true /\ fish_words line = None).
Proof.
  pose (mk := fun prog => Cmd prog None [] None XFalse XFalse XFalse [] [] None).
  exists (mk (s "r&d")), (mk (s "it's")), (mk (s "it's")). split; [vm_compute; reflexivity |]. split; [vm_compute; reflexivity |]. split.
  - intros st helpers functions wrapper names ->. exists (s "complete -F _r_d r&d"). split; [| vm_compute; reflexivity].
    unfold bash_script. rewrite !app_assoc. rewrite <- (app_assoc _ [_]). apply last_part; [apply vim_lines; unfold one_line; cbn; intuition discriminate |].
    vm_compute. reflexivity.
  - intros. destruct (fish_code' st helpers (s "it's") prepare used wraps generators aliases) as [before E]. exists (s "set -l prog 'it's'").
    change (c_prog (mk (s "it's"))) with (s "it's"). rewrite E. split; [| split; vm_compute; reflexivity]. apply in_or_app. right. apply in_or_app. left.
    unfold block, fish_header. rewrite code_block. apply in_flat_map. eexists. split; [left; reflexivity |]. vm_compute. tauto.
Qed.
Print Assumptions C116_name_refuted.

(** Violation of C116: an alias [a=b] is accepted, but zsh takes it for the command [a] that is
    completed like [b]. *)
Theorem C116_service_refuted : exists c : cmd, enhance_commandline e0 default_config c = Ok c /\ In (s "a=b") (c_aliases c) /\
  forall st helpers functions zstyles func wrapper, st_zsh_compdef st = true ->
    first_line (zsh_script st helpers functions zstyles func wrapper (c_prog c :: c_aliases c)) = s "#compdef tool a=b" /\
    ~ compdef_line (first_line (zsh_script st helpers functions zstyles func wrapper (c_prog c :: c_aliases c))) (c_prog c :: c_aliases c).
Proof.
  exists (Cmd (s "tool") None [s "a=b"] None XFalse XFalse XFalse [] [] None). split; [vm_compute; reflexivity |]. split; [now left |].
  intros st helpers functions zstyles func wrapper E. split; [| intros (r & _ & _ & H); discriminate H].
  unfold zsh_script. rewrite E. cbn [app]. rewrite first_get; [reflexivity | discriminate | cbn; intuition discriminate].
Qed.
Print Assumptions C116_service_refuted.
