(** * Definitions that are accepted by the validation can be imported. *)
From Coq Require Import String.
From Verif Require Import Base Dict Value StrUtils Cli DictSource SchemeValidator SpecScheme SpecCli SpecValid
  SchemeNested SchemeProofs SchemeDefinitions ArgparseSource PropertiesScheme PropertiesValid SpecImport ImportProofs.
Open Scope string_scope.
Open Scope list_scope.

(** ** C134 *)

(** As when a file is loaded, the variables are replaced before the definitions are validated.
    Definitions of a program and its direct subcommands that are accepted then are imported.
    Missing: deeper subcommands, parameters written as [null], and program names with white space
    other than blanks; see the refutation below. *)
Theorem C134_import_partial : forall e docs,
  let validated := replace_defines_in_documents docs in
  (forall v, In v validated -> proper v /\ plain_prog v /\ without_null v /\ length (words v) <= 2) ->
  validate e validated = Ok tt ->
  exists c, dictionaries_to_commandline docs = Ok c.
Proof.
  intros e docs validated H Hv. apply validate_iff in Hv as (H1 & H2 & H3 & H4 & H5).
  apply (written_imported e docs); try assumption. intros v Hin. destruct (H v Hin) as (P1 & P2 & P3 & P4).
  split; [exact P1|]. split; [exact P2|]. split; [exact P3|]. apply (H5 v Hin P4).
Qed.
Print Assumptions C134_import_partial.

(** Full claim: whatever the validation accepts is imported.  It accepts: a parameter of an option
    that is [null] instead of a truth value; a group that is [null]; [null] instead of the options; a
    program name with a no-break space; an option of a deeper subcommand without option strings. *)
Theorem C134_import_refuted : exists e bad, List.length bad = 5 /\
  forall docs, In docs bad -> validate e (replace_defines_in_documents docs) = Ok tt /\ forall c, dictionaries_to_commandline docs <> Ok c.
Proof.
  exists e0,
    [[doc "tool" [opt_doc ["--quit"] [entry "final" VNone]] []];
     [doc "tool" [opt_doc ["--quit"] [entry "group" VNone]] []];
     [VDict [entry "prog" (text "tool"); entry "options" VNone]];
     [VDict [(VStr (s "prog"), VStr (s "my" ++ [160%N] ++ s "tool"))]];
     [doc "a" [] []; doc "a b" [] []; doc "a b c" [VDict []] []]].
  split; [reflexivity|]. intros docs [<-|[<-|[<-|[<-|[<-|[]]]]]]; (split; [vm_compute; reflexivity|intros c; vm_compute; discriminate]).
Qed.
Print Assumptions C134_import_refuted.

(** Definitions with a variable, a group, and parameters that may be [null]. *)
Definition grouped : list value :=
  [VDict [entry "prog" (text "%defines%"); entry "GROUP" (text "io")];
   doc "tool" [opt_doc ["--in"; "-i"] [entry "complete" (texts ["file"]); entry "metavar" (text "FILE"); entry "group" (text "GROUP");
                                       entry "final" (VBool true); entry "when" VNone]] [];
   doc "tool run" [] [pos_doc 1 [entry "complete" (texts ["command"]); entry "repeatable" (VBool true); entry "help" VNone]]].
Example C134_example :
  let validated := replace_defines_in_documents grouped in
  (forall v, In v validated -> proper v /\ plain_prog v /\ without_null v /\ List.length (words v) <= 2) /\
  validate e0 validated = Ok tt /\
  exists c x o, dictionaries_to_commandline grouped = Ok c /\ c_options c = [o] /\ o_groups o = Some [s "io"] /\ subs c = [x].
Proof.
  split; [|split].
  - intros v Hv. vm_compute in Hv. split; [|split; [|split]].
    + destruct Hv as [<-|[<-|[]]]; apply properb_ok; vm_compute; reflexivity.
    + intros d p ch Ev Ep Hc. destruct Hv as [<-|[<-|[]]]; injection Ev as <-; vm_compute in Ep; injection Ep as <-; repeat (destruct Hc as [<-|Hc]; [vm_compute; auto; discriminate|]); destruct Hc.
    + assert (NN : forall names v, forallb (fun k => match v with VDict d => match vget (s k) d with Some VNone => false | _ => true end | _ => true end) names = true ->
        not_null names v).
      { intros names w Hb d k -> Hk E. apply (proj1 (forallb_forall _ _) Hb) in Hk. rewrite E in Hk. discriminate. }
      split; [|split].
      * apply NN. destruct Hv as [<-|[<-|[]]]; vm_compute; reflexivity.
      * intros o (d & l & -> & El & Ho). apply NN. destruct Hv as [E|[E|[]]]; injection E as <-; vm_compute in El; injection El as <-;
          repeat (destruct Ho as [<-|Ho]; [vm_compute; reflexivity|]); destruct Ho.
      * intros o (d & l & -> & El & Ho). apply NN. destruct Hv as [E|[E|[]]]; injection E as <-; vm_compute in El; injection El as <-;
          repeat (destruct Ho as [<-|Ho]; [vm_compute; reflexivity|]); destruct Ho.
    + destruct Hv as [<-|[<-|[]]]; vm_compute; auto.
  - vm_compute. reflexivity.
  - eexists _, _, _. split; [vm_compute; reflexivity|]. split; [reflexivity|]. split; reflexivity.
Qed.
