(** * Property C113: lists of values. *)
From Coq Require Import String.
From Verif Require Import Base PyStr Value SchemeValidator PropertiesScheme Shell SpecShell ShellProofs ZshUtils SpecZsh Choices SpecChoices BashWords SpecBashWords
  PropertiesBashWords KeyValue SpecKeyValue SpecValueList.
From Verif Require Import ValueListProofs.
From Verif Require ValueList.
Open Scope string_scope.
Open Scope list_scope.

(** ** C113: While a list of values is typed, the values that begin like its last element and, unless
    duplicates are allowed, are not in it yet are offered, with the elements before. *)

(** Bash: the helper is called with the separator and the values as they are written in the definition.
    If the last element is not a value yet, the offers are the right ones, for a separator that is no
    blank, if the last word break is not in the last element. *)
Theorem C113_bash_partial helper sep dup items may typed els b :
  let v := ValueList.ValueList [sep] dup items in
  let values := ValueList.names items in
  (dup = true -> may = true) -> Forall (list_value sep) values ->
  dq_result typed = typed_list sep els b -> Forall (list_element sep) els -> list_element sep b ->
  memc sep [SP; TAB; LF] = false -> ~ In LF (typed_list sep els b) -> break_before typed (List.length (before sep els)) -> ~ In b values ->
  exists args, posix_words (ValueList.bash_text helper v) = Some (helper :: args) /\
    map (inserted typed) (ValueList.bash_value_list may typed args) = map (fun x => before sep els ++ x) (filter (fits dup els b) values).
Proof.
  intros v values Hd Hv R He Hb Hs Hl Hbr Hn. exists ((if dup then [s "-d"] else []) ++ [[sep]] ++ values). split.
  - unfold ValueList.bash_text. rewrite posix_join_quoted. reflexivity.
  - rewrite (bash_values may typed dup sep values els b R Hs He Hb Hl Hv Hbr Hd).
    destruct (mems b values) eqn:M; [contradiction Hn; now apply CaptureProofs.mems_iff | reflexivity].
Qed.
Print Assumptions C113_bash_partial.

(** If the last element is a value, the separator is offered, provided that another value may follow. *)
Theorem C113_bash_next sep dup items may typed els b :
  let values := ValueList.names items in
  (dup = true -> may = true) -> Forall (list_value sep) values ->
  dq_result typed = typed_list sep els b -> Forall (list_element sep) els -> list_element sep b ->
  memc sep [SP; TAB; LF] = false -> ~ In LF (typed_list sep els b) -> break_before typed (List.length (before sep els)) -> In b values ->
  map (inserted typed) (ValueList.bash_value_list may typed (tl (ValueList.bash_args [] (ValueList.ValueList [sep] dup items)))) =
  if existsb (fun x => dup || negb (mems x (els ++ [b]))) values then [typed_list sep els b ++ [sep]] else [].
Proof.
  intros values Hd Hv R He Hb Hs Hl Hbr Hn.
  pose proof (bash_values may typed dup sep values els b R Hs He Hb Hl Hv Hbr Hd) as E.
  apply CaptureProofs.mems_iff in Hn. rewrite Hn in E. exact E.
Qed.
Print Assumptions C113_bash_next.

(** fish: the function that is generated prints the values and their descriptions; the offers that begin
    like the word are the right ones, where an element that is complete is no candidate for itself. *)
Theorem C113_fish_partial sep dup items els b :
  ValueList.names items <> [] -> (forall v d, In (v, d) (printed_items items) -> printable v /\ ~ In TAB v /\ printable d) ->
  Forall (fun vd => list_value sep (fst vd)) (printed_items items) -> Forall (list_element sep) els -> list_element sep b -> sep <> STAR ->
  exists printed, fish_function_code (ValueList.fish_values_code items) = Some printed /\
    filter (fun vd => starts_with (typed_list sep els b) (fst vd)) (ValueList.fish_list dup sep (typed_list sep els b) printed) =
    map (fun vd => (before sep els ++ fst vd, snd vd)) (filter (fun vd => fits dup (els ++ match b with [] => [] | _ => [b] end) b (fst vd)) (printed_items items)).
Proof.
  intros Hn Hp Hv He Hb Hs. exists (printed_items items). split; [now apply fish_values_printed |].
  apply fish_values; [now apply N.eqb_neq | assumption ..].
Qed.
Print Assumptions C113_fish_partial.

(** zsh: [_values] reads each value and its description as they are in the definition, as a value
    without an argument; it is called with the separator, or, if duplicates are allowed, for each
    element that [_sequence] finds with the separator. *)
Theorem C113_zsh_partial metavar func sep dup items :
  (forall v d, In (v, d) (printed_items items) -> harmless v /\ tame [COLON; LBRK; RBRK] d = true) ->
  (match items with ValueList.Described l => forall v d, In (v, d) l -> d <> [] | _ => True end) ->
  let v := ValueList.ValueList [sep] dup items in
  exists specs,
    map read_value specs = map (fun vd => Some (ValueSpec [] false (fst vd) (match snd vd with [] => None | d => Some d end) None)) (printed_items items) /\
    (dup = false -> ValueList.zsh_args metavar func v = [s "_values"; s "-s"; [sep]; metavar] ++ specs) /\
    (dup = true -> ValueList.zsh_inner metavar v = [s "_values"; metavar] ++ specs /\
       ValueList.zsh_args metavar func v = [s "_sequence"] ++ (if N.eqb sep 44%N then [] else [s "-s"; [sep]]) ++ [s "-d"; func]).
Proof.
  intros H Hd v. exists (ValueList.zsh_values items). split; [now apply zsh_values_read |]. split; intros ->; [reflexivity |]. split; [reflexivity |].
  unfold ValueList.zsh_args. cbn [ValueList.vl_duplicates v negb ValueList.vl_separator].
  change (str_eqb [sep] (s ",")) with (N.eqb sep 44%N && true). rewrite andb_true_r. destruct (N.eqb sep 44%N); reflexivity.
Qed.
Print Assumptions C113_zsh_partial.

(** *** Examples *)
Definition accepted (v : value) : Prop := exists t, check_complete e0 (MkCtx None VNone) [] v = Ok t.
Definition of_values (values : value) (more : list (value * value)) : value := VList [VStr (s "value_list"); VDict ((VStr (s "values"), values) :: more)].
Definition plain (l : list String.string) : value := VList (map (fun x => VStr (s x)) l).

Definition caps : ValueList.items := ValueList.Described [(s "chown", s "Make arbitrary changes"); (s "chroot", s "Use chroot"); (s "kill", s "Send signals")].
Definition caps_list (dup : bool) : ValueList.value_list := ValueList.ValueList (s ",") dup caps.
Example C113_example :
  accepted (of_values (VDict [(VStr (s "chown"), VStr (s "Make arbitrary changes")); (VStr (s "chroot"), VStr (s "Use chroot")); (VStr (s "kill"), VStr (s "Send signals"))]) []) /\
  Forall (list_value 44%N) (ValueList.names caps) /\
  dequote default_breaks (s "'chown,ch") = Dequoted (typed_list 44%N [s "chown"] (s "ch")) None true /\
  ValueList.bash_text (s "_tool_value_list") (caps_list false) = s "_tool_value_list , chown chroot kill" /\
  ValueList.bash_value_list false (dequote default_breaks (s "'chown,ch")) [s ","; s "chown"; s "chroot"; s "kill"] = [s "chown,chroot"] /\
  ValueList.bash_value_list true (dequote default_breaks (s "'chown,ch")) [s "-d"; s ","; s "chown"; s "chroot"; s "kill"] = [s "chown,chown"; s "chown,chroot"] /\
  ValueList.bash_value_list false (dequote default_breaks (s "chown")) [s ","; s "chown"; s "chroot"; s "kill"] = [s "chown,"] /\
  ValueList.fish_list false 44%N (s "kill,") (printed_items caps) = [(s "kill,chown", s "Make arbitrary changes"); (s "kill,chroot", s "Use chroot")] /\
  (forall v d, In (v, d) (printed_items caps) -> harmless v /\ tame [COLON; LBRK; RBRK] d = true) /\
  ValueList.zsh_args (s "CAPS") (s "_f") (caps_list false) = [s "_values"; s "-s"; s ","; s "CAPS"; s "chown[Make arbitrary changes]"; s "chroot[Use chroot]"; s "kill[Send signals]"] /\
  read_value (s "chown[Make arbitrary changes]") = Some (ValueSpec [] false (s "chown") (Some (s "Make arbitrary changes")) None).
Proof.
  split; [eexists; reflexivity |]. split.
  { repeat constructor; try discriminate; intros K; vm_compute in K; intuition discriminate. }
  do 6 (split; [reflexivity |]). split; [| split; reflexivity].
  intros v d [E | [E | [E | []]]]; injection E as <- <-; (split; [split; [discriminate | reflexivity] | reflexivity]).
Qed.

(** *** Counterexamples: definitions that are accepted *)

(** In Bash, a value that is the beginning of another one hides it. *)
Theorem C113_bash_prefix_refuted :
  accepted (of_values (plain ["net"; "netlink"; "user"]) []) /\
  let values := [s "net"; s "netlink"; s "user"] in
  In (s "netlink") (filter (fits false [] (s "net")) values) /\
  ValueList.bash_value_list false (dequote default_breaks (s "net")) ([s ","] ++ values) = [s "net,"].
Proof. split; [eexists; reflexivity |]. split; [vm_compute; tauto | reflexivity]. Qed.
Print Assumptions C113_bash_prefix_refuted.

(** In Bash, with a word break in the last element: its beginning is inserted again. *)
Theorem C113_bash_break_refuted :
  accepted (of_values (plain ["host:80"; "host:443"]) []) /\
  let values := [s "host:80"; s "host:443"] in
  let offers x := map (inserted (dequote default_breaks x)) (ValueList.bash_value_list false (dequote default_breaks x) ([s ","] ++ values)) in
  filter (fits false [] (s "host:8")) values = [s "host:80"] /\ offers (s "host:8") = [s "host:8host:80"] /\
  filter (fits false [] (s "host:")) values = values /\ offers (s "host:") = [s "host:host:80"; s "host:host:443"].
Proof. split; [eexists; reflexivity |]. repeat split; reflexivity. Qed.
Print Assumptions C113_bash_break_refuted.

(** In Bash, a value is offered as it is: with a blank in it, what is inserted is read as two words. *)
Theorem C113_bash_blank_refuted :
  accepted (of_values (plain ["read only"; "read write"]) []) /\
  exists x, In x (ValueList.bash_value_list false (dequote default_breaks []) [s ","; s "read only"; s "read write"]) /\
    posix_words x = Some [s "read"; s "only"].
Proof. split; [eexists; reflexivity |]. exists (s "read only"). split; [now left | reflexivity]. Qed.
Print Assumptions C113_bash_blank_refuted.

(** In fish, with a star as the separator: the pattern matches every word, so that the beginning of an
    element is taken as a list that is complete. *)
Theorem C113_fish_star_refuted :
  accepted (of_values (plain ["red"; "green"]) [(VStr (s "separator"), VStr (s "*"))]) /\
  filter (fits false [] (s "gr")) [s "red"; s "green"] = [s "green"] /\
  ValueList.fish_list false STAR (s "gr") [(s "red", []); (s "green", [])] = [(s "grred", []); (s "grgreen", [])].
Proof. split; [eexists; reflexivity |]. split; reflexivity. Qed.
Print Assumptions C113_fish_star_refuted.

(** In zsh, a colon in a value begins an argument for the value: [_values] knows another value then. *)
Theorem C113_zsh_colon_refuted :
  accepted (of_values (plain ["host:80"; "host:443"]) []) /\
  map (fun x => option_map vs_key (read_value x)) (ValueList.zsh_values (ValueList.Plain [s "host:80"; s "host:443"])) = [Some (s "host"); Some (s "host")].
Proof. split; [eexists; reflexivity |]. reflexivity. Qed.
Print Assumptions C113_zsh_colon_refuted.
