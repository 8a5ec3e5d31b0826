(** * Theorems about unsorted suggestions in zsh: C108. *)
From Verif Require Import Base PyStr Value Cli CliExamples SpecCli CliProofs ZshStyles SpecZshStyles ZshStylesProofs.
From Coq Require Import Lia.
Open Scope string_scope. Open Scope list_scope.

(** ** Examples *)
Definition arg_option (strings : list str) (nosort : bool) : opt :=
  MkOpt strings None None (Some [VStr (s "none")]) nosort None false XInherit false false None None SepInherit.
Definition arg_positional (n : Z) (nosort repeatable : bool) : pos := MkPos n None None [VStr (s "none")] nosort repeatable None None.
Definition log_sub : cmd := Cmd (s "log") None [] None XInherit XInherit XInherit [arg_option [s "--format"] false] [arg_positional 1 true false] None.
Definition vc_tool : cmd := Cmd (s "vc") None [s "v"] None XInherit XInherit XInherit
  [arg_option [s "-s"; s "--sort"] true; arg_option [s "--sort-by"] false; arg_option [s "--root"] false] [] (Some [log_sub]).
Definition list_tool : cmd := Cmd (s "list") None [s "ls"] None XInherit XInherit XInherit
  [arg_option [s "--order"] true] [arg_positional 1 true false; arg_positional 2 true true] None.

Lemma vc_located ps c : located vc_tool ps c -> c = vc_tool \/ c = log_sub.
Proof.
  intros H. induction H as [|ps1 c1 sub1 _ IH Hi]; [auto|]. destruct IH as [->| ->]; [destruct Hi as [<-|[]]; auto|destruct Hi].
Qed.
Lemma vc_simple : simple_tree vc_tool.
Proof.
  split; [apply simple_text; reflexivity|]. split; [split; intros t E; discriminate E|].
  intros ps c o x Hl Ho Hx. apply simple_text. destruct (vc_located _ _ Hl) as [->| ->].
  - destruct Ho as [<-|[<-|[<-|[]]]]; [destruct Hx as [<-|[<-|[]]]|destruct Hx as [<-|[]]|destruct Hx as [<-|[]]]; reflexivity.
  - destruct Ho as [<-|[]]. destruct Hx as [<-|[]]. reflexivity.
Qed.
Lemma list_simple : simple_tree list_tool.
Proof.
  split; [apply simple_text; reflexivity|]. split; [split; intros t E; discriminate E|].
  intros ps c o x Hl Ho Hx. apply simple_text.
  assert (forall ps c, located list_tool ps c -> c = list_tool) as HH.
  { intros ps0 c0 H. induction H as [|ps1 c1 sub1 _ IH Hi]; [auto|]. subst c1. destruct Hi. }
  rewrite (HH _ _ Hl) in Ho. destruct Ho as [<-|[]]. destruct Hx as [<-|[]]. reflexivity.
Qed.

(** ** C108 *)

(** Sorting is switched off for the arguments of an option if, and only if, the option has [nosort] set,
    or its string continues, after a dash, the string of an option that has it, in any of the
    commands. *)
Theorem C108_options_partial : forall root f g tag y n, simple_tree root -> ~ In COLON f -> ~ In COLON g -> ~ In COLON tag -> ~ In COLON y ->
  (unsorted (zstyles root) (context f g (c_prog root) (option_argument y n) tag) <->
   exists ps c o x, located root ps c /\ In o (c_options c) /\ o_nosort o = true /\ In x (o_strings o) /\ (y = x \/ exists t, y = x ++ s "-" ++ t)).
Proof. exact options_unsorted. Qed.
Print Assumptions C108_options_partial.
(** Sorting is switched off for the [n]-th argument of the command line if, and only if, some command has
    a positional argument with this number and [nosort]. *)
Theorem C108_positionals_partial : forall root f g tag n, simple_tree root -> ~ In COLON f -> ~ In COLON g -> ~ In COLON tag ->
  (unsorted (zstyles root) (context f g (c_prog root) (normal_argument n) tag) <->
   exists ps c p, located root ps c /\ In p (c_positionals c) /\ p_nosort p = true /\ p_number p = Z.of_nat n).
Proof. exact positionals_unsorted. Qed.
Print Assumptions C108_positionals_partial.

Example C108_example : unsorted (zstyles list_tool) (context [] (s "complete") (s "list") (option_argument (s "--order") 1) (s "values")) /\
  unsorted (zstyles list_tool) (context [] (s "complete") (s "list") (normal_argument 1) (s "files")) /\
  ~ unsorted (zstyles vc_tool) (context [] (s "complete") (s "vc") (option_argument (s "--root") 1) (s "files")).
Proof.
  assert (forall x : str, forallb (fun c => negb (N.eqb c COLON)) x = true -> ~ In COLON x) as Hc.
  { intros x H Hi. rewrite forallb_forall in H. apply H in Hi. discriminate Hi. }
  split; [|split].
  - apply (options_unsorted list_tool); try (apply Hc; reflexivity); [exact list_simple|].
    exists [], list_tool, (arg_option [s "--order"] true), (s "--order"). split; [constructor|]. split; [now left|]. split; [reflexivity|]. split; now left.
  - apply (positionals_unsorted list_tool); try (apply Hc; reflexivity); [exact list_simple|].
    exists [], list_tool, (arg_positional 1 true false). split; [constructor|]. split; [now left|]. split; reflexivity.
  - intros H. apply (options_unsorted vc_tool) in H; try (apply Hc; reflexivity); [|exact vc_simple]. destruct H as (ps & c & o & x & Hl & Ho & En & Hx & Hy).
    destruct (vc_located _ _ Hl) as [->| ->].
    + destruct Ho as [<-|[<-|[<-|[]]]]; try discriminate En. destruct Hx as [<-|[<-|[]]]; destruct Hy as [E|[t E]]; discriminate E.
    + destruct Ho as [<-|[]]; discriminate En.
Qed.

(** *** What does not hold *)

(** An option without [nosort] is not sorted, because its string continues another one's. *)
Theorem C108_longer_option_refuted : exists root o x, built root /\ simple_tree root /\ In o (c_options root) /\ o_nosort o = false /\ In x (o_strings o) /\
  (forall o', In o' (c_options root) -> In x (o_strings o') -> o' = o) /\
  forall f g tag, ~ In COLON f -> ~ In COLON g -> ~ In COLON tag -> unsorted (zstyles root) (context f g (c_prog root) (option_argument x 1) tag).
Proof.
  exists vc_tool, (arg_option [s "--sort-by"] false), (s "--sort-by"). split; [by_copy|]. split; [exact vc_simple|]. split; [right; now left|].
  split; [reflexivity|]. split; [now left|]. split.
  - intros o' [<-|[<-|[<-|[]]]] Hx; try reflexivity; exfalso; repeat (destruct Hx as [Hx|Hx]; [discriminate Hx|]); exact Hx.
  - intros f g tag Hf Hg Ht. apply options_unsorted; try assumption; [exact vc_simple|intros Hi; repeat (destruct Hi as [Hi|Hi]; [discriminate Hi|]); exact Hi|].
    exists [], vc_tool, (arg_option [s "-s"; s "--sort"] true), (s "--sort"). split; [constructor|]. split; [now left|]. split; [reflexivity|].
    split; [right; now left|]. right. exists (s "by"). reflexivity.
Qed.
Print Assumptions C108_longer_option_refuted.
(** Positional arguments that can be repeated are always sorted. *)
Theorem C108_repeatable_refuted : exists root p, built root /\ simple_tree root /\ In p (c_positionals root) /\ p_nosort p = true /\ p_repeatable p = true /\
  forall f g tag, ~ In COLON f -> ~ In COLON g -> ~ In COLON tag -> ~ unsorted (zstyles root) (context f g (c_prog root) rest_arguments tag).
Proof.
  exists list_tool, (arg_positional 2 true true). split; [by_copy|]. split; [exact list_simple|]. split; [right; now left|]. split; [reflexivity|]. split; [reflexivity|].
  intros f g tag. apply rest_sorted, list_simple.
Qed.
Print Assumptions C108_repeatable_refuted.
(** The positional arguments of sub-commands are counted without the names of the commands before them:
    they are sorted, and other arguments are not. *)
Theorem C108_subcommand_refuted : exists root ps c p, built root /\ simple_tree root /\ located root ps c /\ In p (c_positionals c) /\ p_nosort p = true /\
  p_repeatable p = false /\ (positional_index ps (p_number p) + 1 = 2)%Z /\
  (forall f g tag, ~ In COLON f -> ~ In COLON g -> ~ In COLON tag -> ~ unsorted (zstyles root) (context f g (c_prog root) (normal_argument 2) tag)) /\
  (forall f g tag, ~ In COLON f -> ~ In COLON g -> ~ In COLON tag -> unsorted (zstyles root) (context f g (c_prog root) (normal_argument 1) tag)).
Proof.
  exists vc_tool, [vc_tool], log_sub, (arg_positional 1 true false). split; [by_copy|]. split; [exact vc_simple|].
  assert (located vc_tool [vc_tool] log_sub) as Hl by (apply located_sub; [constructor|now left]).
  split; [exact Hl|]. split; [now left|]. split; [reflexivity|]. split; [reflexivity|]. split; [reflexivity|]. split.
  - intros f g tag Hf Hg Ht H. apply positionals_unsorted in H; try assumption; [|exact vc_simple]. destruct H as (ps & c & p & Hl' & Hp & _ & En).
    destruct (vc_located _ _ Hl') as [->| ->]; [destruct Hp|destruct Hp as [<-|[]]; discriminate En].
  - intros f g tag Hf Hg Ht. apply positionals_unsorted; try assumption; [exact vc_simple|].
    exists [vc_tool], log_sub, (arg_positional 1 true false). split; [exact Hl|]. split; [now left|]. split; reflexivity.
Qed.
Print Assumptions C108_subcommand_refuted.
(** Called by an alias, everything is sorted. *)
Theorem C108_alias_refuted : exists root o alias, built root /\ simple_tree root /\ In o (c_options root) /\ o_nosort o = true /\ o_strings o = [s "--order"] /\ In alias (c_aliases root) /\
  forall f g tag, ~ In COLON f -> ~ In COLON g -> ~ In COLON tag -> ~ unsorted (zstyles root) (context f g alias (option_argument (s "--order") 1) tag).
Proof.
  exists list_tool, (arg_option [s "--order"] true), (s "ls"). split; [by_copy|]. split; [exact list_simple|]. split; [now left|]. split; [reflexivity|]. split; [reflexivity|].
  split; [now left|]. intros f g tag Hf Hg Ht.
  apply alias_sorted; try assumption; [exact list_simple| | |discriminate|discriminate]; intros Hi; vm_compute in Hi; repeat (destruct Hi as [Hi|Hi]; [discriminate Hi|]); exact Hi.
Qed.
Print Assumptions C108_alias_refuted.
