(** * Specification: command lines as zsh scripts read them.

    Independent of the code under test. *)
From Verif Require Import Base Value StrUtils When Cli SpecCli SpecWhen SpecParser SpecQuery SpecOffered.
Open Scope list_scope.

(** No word that consists of short options of some command is, as a whole, a long or old-style option
    of any command, nor one with an attached argument. *)
Definition unmistakable (root : cmd) (ws : list str) : Prop :=
  forall cs here n given waiting, In (DASH :: cs) ws -> located root (fst here) (snd here) -> together anywhere here n cs given waiting -> no_option here (DASH :: cs) ->
  forall rs c o x, located root rs c -> In o (c_options c) -> In x (o_strings o) -> 3 <= List.length x ->
    DASH :: cs <> x /\ ~ is_prefix (x ++ [EQ]) (DASH :: cs).

(** The positional arguments select the command [c] with the ancestors [ps], and none of its
    sub-commands. *)
Definition leads_to (positionals : list str) (ps : list cmd) (c : cmd) : Prop :=
  selected positionals ps c /\ forall sub, In sub (subs c) -> ~ selected positionals (c :: ps) sub.

(** ** Conditions *)

(** Tests that name options, count positionals from one, and compare with values that are not empty
    and do not start with [=]. *)
Definition zsh_test_ok (o : wobj) : Prop :=
  match o with
  | HasOption os => forall x, In x os -> is_valid_option_string x = true
  | OptionIs os values _ _ => (forall x, In x os -> is_valid_option_string x = true) /\ forall y, ~ In (EQ :: y) values
  | OptionMatch os regex _ _ => (forall x, In x os -> is_valid_option_string x = true) /\ forall y, regex <> EQ :: y
  | PositionalCount op _ => In op [s "=="; s "!="; s "<="; s ">="; s "<"; s ">"]
  | PositionalContains _ n values => (1 <= n)%Z /\ ~ In [] values /\ forall y, ~ In (EQ :: y) values
  end.
(** The helpers have different names. *)
Definition different_names (e : zenv) : Prop :=
  z_query e <> z_option_match e /\ z_query e <> z_array_contains e /\ z_option_match e <> z_array_contains e.
(** A condition is met if there is none, or if it holds for the command line. *)
Definition condition_met (ere : str -> bool) (matches : str -> bool -> str -> bool) (positionals : list str) (given : list (str * str)) (w : option str) : Prop :=
  match w with
  | None => True
  | Some w => exists cond, parse_when ere w = Ok (map wtok_of (conds_syms cond)) /\ cond_holds matches positionals given cond
  end.
(** A condition that consists of such tests *)
Definition zsh_condition_ok (ere : str -> bool) (w : str) : Prop :=
  exists cond, parse_when ere w = Ok (map wtok_of (conds_syms cond)) /\ forall o, In (STest o) (conds_syms cond) -> zsh_test_ok o.
