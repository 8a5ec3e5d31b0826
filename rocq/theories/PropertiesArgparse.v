(** * Theorems about parsers made with argparse: C107. *)
From Verif Require Import Base PyStr Value Cli CliExamples SpecScheme SpecCli Argparse SpecArgparse ArgparseProofs Generation PropertiesScheme.
From Coq Require Import Lia.
Open Scope string_scope. Open Scope list_scope.

(** ** Example *)
Definition ac (k : akind) (strings : list str) (n : anargs) (dest : str) (c : achoices) (h : option str) : action :=
  MkAction k strings n dest MNone c h None None XInherit false.
Definition help_action : action := ac KHelp [s "-h"; s "--help"] (NInt 0) (s "help") ChNone (Some (s "show this help")).
Definition all_action : action := ac KFlag [s "-a"; s "--all"] (NInt 0) (s "all") ChNone None.
Definition only_action : action := ac KStore [s "--only"] NNone (s "only") (ChValue (VList [text "a"; text "b"])) (Some SUPPRESS).
Definition level_action : action := ac KStore [s "-l"] (NText (s "?")) (s "level") (ChRange 0 10 2) None.
Definition files_action : action := ac KStore [] (NText (s "*")) (s "files") ChNone (Some (s "the files")).
Definition add_parser : parser := Parser (s "tool add") None [] [Act help_action; Act level_action; Act files_action] [].
Definition tool_parser : parser :=
  Parser (s "tool") (Some (s "A tool")) [s "tl"]
    [Act help_action; Act all_action; Act only_action; Act (ac KStore [] NNone (s "mode") ChNone None);
     Sub [(s "add", add_parser); (s "new", add_parser)] [(s "add", Some (s "add files"))]]
    [[[s "-a"; s "--all"]; [s "--only"]]].

(** ** C107 *)

(** A converted parser has the parser's options, positional arguments and sub-commands, in their order,
    with the parser's texts and completers. *)
Theorem C107_converted : forall p name description c, to_commandline p name description = Ok c -> converted p name description c.
Proof. intros p name description c. apply converts. Qed.
Print Assumptions C107_converted.
(** The result is a command line as the constructors build them. *)
Theorem C107_built : forall p name description c, to_commandline p name description = Ok c -> built c.
Proof. exact converts_built. Qed.
Print Assumptions C107_built.
(** Two options exclude each other if, and only if, argparse has them in a mutually exclusive group. *)
Theorem C107_exclusive : forall p name description c i j a b o1 o2, orderly p -> to_commandline p name description = Ok c ->
  nth_error (options (items_of p)) i = Some a -> nth_error (options (items_of p)) j = Some b ->
  nth_error (c_options c) i = Some o1 -> nth_error (c_options c) j = Some o2 ->
  (share_group o1 o2 <-> same_group p a b).
Proof. exact exclusive. Qed.
Print Assumptions C107_exclusive.
(** Which parsers can be converted. *)
Theorem C107_supported_exactly : forall p, supported p <-> forall name description, exists c, to_commandline p name description = Ok c.
Proof. exact supported_exactly. Qed.
Print Assumptions C107_supported_exactly.

Lemma dashed y : forallb (fun c => negb (is_space c) && negb (N.eqb c COMMA)) y = true -> y <> [] -> y <> [DASH] -> option_string (DASH :: y).
Proof.
  intros H H1 H2. exists y. repeat split; try assumption; rewrite forallb_forall in H; apply H in H0; apply andb_true_iff in H0 as [E1 E2].
  - now destruct (is_space c).
  - apply N.eqb_neq. now destruct (N.eqb c COMMA).
Qed.
Lemma help_ok : arity_ok help_action /\ (a_kind help_action = KStore -> one_metavar help_action) /\
  (forall x, In x (a_strings help_action) -> option_string x) /\ (a_nargs help_action = NText (s "?") -> a_kind help_action = KStore) /\
  (suppressed help_action -> a_repeatable help_action <> XTrue).
Proof.
  split; [split; discriminate|]. split; [discriminate|]. split; [|split; discriminate].
  intros x [<-|[<-|[]]]; apply dashed; try reflexivity; discriminate.
Qed.
Lemma add_supported : supported add_parser.
Proof.
  constructor.
  - intros x [].
  - intros a [<-|[<-|[]]]; [exact help_ok|]. split; [split; discriminate|]. split; [discriminate|]. split; [|split; [reflexivity|discriminate]].
    intros x [<-|[]]; apply dashed; try reflexivity; discriminate.
  - intros a [<-|[]]. split; [split; discriminate|discriminate].
  - cbn. lia.
  - intros ch hp [].
Qed.
Example C107_supported_example : supported tool_parser.
Proof.
  constructor.
  - intros x [<-|[]]. repeat split; intros H; repeat destruct H as [H|H]; try discriminate H; exact H.
  - intros a [<-|[<-|[<-|[]]]]; [exact help_ok| |].
    + split; [split; discriminate|]. split; [discriminate|]. split; [|split; discriminate].
      intros x [<-|[<-|[]]]; apply dashed; try reflexivity; discriminate.
    + split; [split; discriminate|]. split; [discriminate|]. split; [|split; discriminate].
      intros x [<-|[]]; apply dashed; try reflexivity; discriminate.
  - intros a [<-|[]]. split; [split; discriminate|discriminate].
  - cbn. lia.
  - intros ch hp [E|[]]. assert (ch = [(s "add", add_parser); (s "new", add_parser)] /\ hp = [(s "add", Some (s "add files"))]) as [-> ->] by (split; congruence).
    split; [|split].
    + constructor; [intros [H|[]]; vm_compute in H; discriminate H|]. constructor; [intros []|constructor].
    + intros n q [H|[H|[]]]; assert (q = add_parser) as -> by congruence; exact add_supported.
    + intros x [<-|[]]. now left.
Qed.
Example C107_orderly_example : orderly tool_parser.
Proof.
  split.
  - intros g x [<-|[]] [<-|[<-|[]]]; right; cbn; auto.
  - intros [|[|i]] [|[|j]] g h x E1 E2; try discriminate; auto.
  - intros a b x [<-|[<-|[<-|[]]]] [<-|[<-|[<-|[]]]] Ha Hb; try reflexivity; exfalso; cbn [a_strings ac help_action all_action only_action] in Ha, Hb;
      repeat (destruct Ha as [Ha|Ha]; [subst x; repeat (destruct Hb as [Hb|Hb]; [vm_compute in Hb; discriminate Hb|]); exact Hb|]); exact Ha.
Qed.
Example C107_example : exists c, to_commandline tool_parser [] None = Ok c /\
  map o_strings (c_options c) = [[s "-h"; s "--help"]; [s "-a"; s "--all"]; [s "--only"]] /\
  map o_groups (c_options c) = [None; Some [s "group1"]; Some [s "group1"]] /\
  map o_hidden (c_options c) = [false; false; true] /\ map c_prog (subs c) = [s "add"; s "new"] /\ map c_help (subs c) = [Some (s "add files"); None].
Proof. eexists. split; [reflexivity|]. repeat split; reflexivity. Qed.

(** *** What does not hold *)

(** argparse takes a tuple of placeholders for options with several arguments; such parsers are not
    converted. *)
Definition size_action : action := MkAction KStore [s "--size"] (NInt 2) (s "size") (MTuple [s "W"; s "H"]) ChNone None None None XInherit false.
Theorem C107_tuple_metavar_refuted : exists p, (forall a, In a (actions (items_of p)) -> a_kind a = KStore) /\
  orderly p /\ forall name description c, to_commandline p name description <> Ok c.
Proof.
  exists (Parser (s "tool") None [] [Act size_action] []). split; [intros a [<-|[]]; reflexivity|]. split.
  - split; [intros g x []|intros [|i] j g h x E; discriminate|]. intros a b x [<-|[]] [<-|[]] _ _. reflexivity.
  - intros name description c H. destruct name; vm_compute in H; discriminate H.
Qed.
Print Assumptions C107_tuple_metavar_refuted.
(** A positional argument whose help is suppressed is described as [==SUPPRESS==]. *)
Theorem C107_suppressed_positional_refuted : exists p a c q, In a (positionals (items_of p)) /\ suppressed a /\
  to_commandline p [] None = Ok c /\ c_positionals c = [q] /\ p_help q = Some (s "==SUPPRESS==").
Proof.
  eexists (Parser (s "tool") None [] [Act (ac KStore [] NNone (s "file") ChNone (Some SUPPRESS))] []), _, _, _.
  split; [left; reflexivity|]. split; [reflexivity|]. split; [reflexivity|]. split; reflexivity.
Qed.
Print Assumptions C107_suppressed_positional_refuted.
(** ... and so is a sub-command. *)
Theorem C107_suppressed_command_refuted : exists p choices helps name c sub, In (choices, helps) (subparsers (items_of p)) /\
  helps = [(name, Some SUPPRESS)] /\ to_commandline p [] None = Ok c /\ subs c = [sub] /\ c_prog sub = name /\ c_help sub = Some (s "==SUPPRESS==").
Proof.
  eexists (Parser (s "tool") None [] [Sub [(s "internal", add_parser)] [(s "internal", Some SUPPRESS)]] []), _, _, (s "internal"), _, _.
  split; [left; reflexivity|]. split; [reflexivity|]. split; [reflexivity|]. repeat split; reflexivity.
Qed.
Print Assumptions C107_suppressed_command_refuted.
(** A parser with several sources and one destination is converted, but its command line is refused by
    the validation. *)
Definition cp_parser : parser :=
  Parser (s "cp") None [] [Act (ac KStore [] (NText (s "+")) (s "source") ChNone None); Act (ac KStore [] NNone (s "dest") ChNone None)] [].
Theorem C107_validated_refuted : exists c m, supported cp_parser /\ to_commandline cp_parser [] None = Ok c /\
  validate_commandlines e0 c = Err (CrazyError m).
Proof.
  eexists _, _. split; [|split; [reflexivity|vm_compute; reflexivity]].
  constructor; [intros x []|intros a []| |cbn; lia|intros ch hp []].
  intros a [<-|[<-|[]]]; (split; [split; discriminate|discriminate]).
Qed.
Print Assumptions C107_validated_refuted.
