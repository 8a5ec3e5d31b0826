(** * The theorems about defines and deprecated entries. *)
From Verif Require Import Base Dict Value StrUtils Cli DictSource SpecDict CliExamples Defines
  SpecDefines DefinesProofs.
Local Open Scope string_scope.
Local Open Scope list_scope.

Definition entry (k : String.string) (v : value) : value * value := (VStr (s k), v).
Definition text (x : String.string) : value := VStr (s x).

(** ** C59 *)

(** The first document of defines is taken out, and in all other documents every text that is a
    defined name is replaced, at any depth, and nothing else changes ... *)
Theorem C59_replaced : forall before D after, (forall v, In v before -> ~ defines_document v) ->
  vget (s "prog") D = Some (VStr (s "%defines%")) ->
  Forall2 (replaced D) (before ++ after)
    (replace_defines_in_documents (before ++ VDict D :: after)).
Proof. exact defines_replaced. Qed.
Print Assumptions C59_replaced.

(** ... and without such a document nothing changes. *)
Theorem C59_no_defines : forall docs, (forall v, In v docs -> ~ defines_document v) ->
  replace_defines_in_documents docs = docs.
Proof. exact no_defines. Qed.
Print Assumptions C59_no_defines.

Definition defs : list (value * value) :=
  [entry "prog" (text "%defines%"); entry "color" (VList [text "choices"; VList [text "red"; text "color"]])].
Definition tool_doc : value :=
  VDict [entry "prog" (text "tool");
         entry "options" (VList [VDict [entry "option_strings" (VList [text "--color"]);
                                        entry "complete" (text "color")]]);
         entry "positionals" (VList [VDict [entry "number" (VBool true)]])].

Example C59_example : (forall v, In v [tool_doc] -> ~ defines_document v) /\
  replace_defines_in_documents [tool_doc; VDict defs] =
    [VDict [entry "prog" (text "tool");
            entry "options" (VList [VDict [entry "option_strings" (VList [text "--color"]);
              entry "complete" (VList [text "choices"; VList [text "red"; text "color"]])]]);
            entry "positionals" (VList [VDict [entry "number" (VBool true)]])]] /\
  exists c, dictionaries_to_commandline [tool_doc; VDict defs] = Ok c /\ c_prog c = s "tool" /\
    map p_number (c_positionals c) = [1%Z].
Proof.
  split; [|split; [vm_compute; reflexivity|eexists; vm_compute; repeat split; reflexivity]].
  intros v [<-|[]] (D & E & H). injection E as <-. vm_compute in H. discriminate.
Qed.

(** ** C60 *)

(** Writing [group: g] is the same as writing [groups: [g]]; if both are given, [groups]
    counts. *)
Theorem C60_group : forall docs docs' o o', one_option_differs docs docs' o o' ->
  modern o o' \/ modern_both o o' ->
  (forall v, In v docs \/ In v docs' -> ~ defines_document v) ->
  dictionaries_to_commandline docs = dictionaries_to_commandline docs'.
Proof.
  intros docs docs' o o' D M N. apply (same_import docs docs' o o' D); [|exact N].
  destruct M as [M|M]; [apply fix_modern in M|apply fix_modern_both in M]; destruct M as [-> ->]; reflexivity.
Qed.
Print Assumptions C60_group.

Definition opt_a (more : list (value * value)) : value :=
  VDict ([entry "option_strings" (VList [text "-a"])] ++ more).
Definition doc_a (more : list (value * value)) : value :=
  VDict [entry "prog" (text "tool"); entry "options" (VList [opt_a more])].

Example C60_example :
  one_option_differs [doc_a [entry "group" (text "g")]] [doc_a [entry "groups" (VList [text "g"])]]
    (opt_a [entry "group" (text "g")]) (opt_a [entry "groups" (VList [text "g"])]) /\
  modern (opt_a [entry "group" (text "g")]) (opt_a [entry "groups" (VList [text "g"])]) /\
  modern_both (opt_a [entry "group" (text "g"); entry "groups" (VList [])]) (opt_a [entry "groups" (VList [])]) /\
  exists c o, dictionaries_to_commandline [doc_a [entry "group" (text "g")]] = Ok c /\
    c_options c = [o] /\ o_groups o = Some [s "g"].
Proof.
  split; [|split; [|split]].
  - exists [], [entry "prog" (text "tool")], [], [], [], [].
    split; [|split; reflexivity]. intros [H|[]]. discriminate H.
  - exists [entry "option_strings" (VList [text "-a"])], (text "g"), [].
    repeat split; cbn; intros [H|[]]; discriminate H.
  - exists [entry "option_strings" (VList [text "-a"])], (text "g"), [entry "groups" (VList [])].
    split; [reflexivity|]. split; [reflexivity|]. split; [intros [H|[H|[]]]; discriminate H|].
    right; left; reflexivity.
  - eexists. eexists. vm_compute. repeat split; reflexivity.
Qed.

(** ** C61 *)

(** The list of definitions can be imported again with the same result if there are no
    defines ... *)
Theorem C61_again_partial : forall docs, (forall v, In v docs -> ~ defines_document v) ->
  dictionaries_to_commandline (documents_afterwards docs) = dictionaries_to_commandline docs.
Proof. exact import_again. Qed.
Print Assumptions C61_again_partial.

Example C61_example : (forall v, In v [doc_a [entry "group" (text "g")]] -> ~ defines_document v) /\
  documents_afterwards [doc_a [entry "group" (text "g")]] = [doc_a [entry "groups" (VList [text "g"])]].
Proof.
  split; [|vm_compute; reflexivity].
  intros v [<-|[]] (D & E & H). injection E as <-. vm_compute in H. discriminate.
Qed.

(** ... but with defines the list has changed and the second import gives something else. *)
Theorem C61_defines_lost_refuted : exists docs c,
  dictionaries_to_commandline docs = Ok c /\
  dictionaries_to_commandline (documents_afterwards docs) <> Ok c.
Proof.
  exists [VDict [entry "prog" (text "%defines%"); entry "about" (text "Colourful")];
          VDict [entry "prog" (text "tool"); entry "help" (text "about")]].
  eexists. split; [vm_compute; reflexivity|]. vm_compute. discriminate.
Qed.
Print Assumptions C61_defines_lost_refuted.
