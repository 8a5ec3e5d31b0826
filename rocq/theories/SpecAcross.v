(** * Specification: when the scripts for Bash and fish are to agree.

    Independent of the code under test. *)
From Coq Require Import Permutation.
From Verif Require Import Base Value StrUtils When Cli SpecCli SpecWhen BashUtils BashParser SpecParser SpecOffered SpecBash FishUtils SpecFish FishConditions FishRuntime SpecFishOffers.
Open Scope list_scope.

(** Options of a command and its ancestors that have the same variable in Bash, or a string in
    common, have all their strings in common, and the same variable. *)
Definition apart (here : place) : Prop :=
  forall d1 d2 o1 o2, In d1 (snd here :: fst here) -> In d2 (snd here :: fst here) -> In o1 (c_options d1) -> In o2 (c_options d2) ->
  opt_variable o1 = opt_variable o2 \/ (exists x, In x (o_strings o1) /\ In x (o_strings o2)) ->
  opt_variable o1 = opt_variable o2 /\ forall x, In x (o_strings o1) <-> In x (o_strings o2).

(** Tests that mean the same in both shells.  They name all strings of an option or none; only the
    arguments of options that need one are looked at; without [-any], they are about one option;
    positional arguments are counted from one and not compared with the empty word. *)
Definition closed (c : cmd) (os : list str) : Prop := forall o x, one_of c os o -> In x (o_strings o) -> In x os.
Definition about_values (c : cmd) (os : list str) (any : bool) : Prop :=
  closed c os /\ (forall o, one_of c os o -> arg_kind o = ArgRequired) /\
  (any = true \/ forall o1 o2, one_of c os o1 -> one_of c os o2 -> o1 = o2).
Definition agreeing_test (c : cmd) (t : wobj) : Prop :=
  match t with
  | HasOption os => closed c os
  | OptionIs os _ _ any | OptionMatch os _ _ any => about_values c os any
  | PositionalCount _ _ => True
  | PositionalContains _ n values => (1 <= n)%Z /\ ~ In [] values
  end.
(** All conditions of options of [c] consist of such tests (and of tests that can be written in
    fish without loss, see C82). *)
Definition agreeing_conditions (ere : str -> bool) (c : cmd) : Prop :=
  forall o e cond t, In o (c_options c) -> o_when o = Some e -> parse_when ere e = Ok (map wtok_of (conds_syms cond)) ->
    In (STest t) (conds_syms cond) -> agreeing_test c t /\ sound_test t /\ clean (test_arguments t).

(** No word is the abbreviation of an option, alone or in front of an argument. *)
Definition unabbreviated (root : cmd) (ws : list str) : Prop :=
  forall w rs c x o, In w ws -> located root rs c -> known (rs, c) x o -> 3 <= List.length x ->
    w = x \/ is_prefix (x ++ [EQ]) w -> In x (o_strings o).

(** ** Options that a fish script offers *)

(** In the commands for [p], there is one for the option [o], and all its conditions are true. *)
Section Fish.
Variable matches : str -> bool -> str -> bool.
Variable incomplete : list str -> bool.
Variable q : query.
Variable e : env.
Variable ere : str -> bool.
Variable completer : list value -> list str.
Variables st inline : bool.
Definition fish_script (p : place) (argss : list (list str)) : Prop :=
  exists ds cmds, definitions ere completer (fst p) (snd p) = Ok ds /\ Forall2 (fun d k => get_complete_cmd st d = Ok k) ds cmds /\
    completes e (generator_block inline cmds) = Some argss.
Definition fish_offers (p : place) (o : opt) : Prop :=
  exists argss args k, fish_script p argss /\ In args argss /\ complete_args args = Some k /\ Permutation (k_options k) (o_strings o) /\
    forall x, In x (k_conditions k) -> fish_eval (fish_truth matches incomplete q e) x = Some true.
End Fish.
