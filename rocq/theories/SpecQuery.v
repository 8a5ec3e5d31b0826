(** * Specification: the positional arguments and the options on a command line.

    Independent of the code under test.  Other than [SpecParser.usage], this is about the option
    strings as they are typed and not about variables, and options are not abbreviated. *)
From Verif Require Import Base Cli SpecCli SpecParser.
Open Scope list_scope.

Section Typed.
(** [usable here n p]: the options of [p] may be used at [here], behind [n] positional arguments. *)
Variable usable : place -> nat -> place -> Prop.

Definition knows (here : place) (n : nat) (x : str) (o : opt) : Prop :=
  exists p, usable here n p /\ In o (c_options (snd p)) /\ In x (o_strings o).
(** [w] is not a long or old-style option of the command or an ancestor, nor one with an attached
    argument. *)
Definition no_option (here : place) (w : str) : Prop :=
  forall p x o, p = here \/ In p (ancestors (fst here)) -> In o (c_options (snd p)) -> In x (o_strings o) ->
    3 <= List.length x -> w <> x /\ ~ is_prefix (x ++ [EQ]) w.

(** Short options written together, without the leading dash: the options with their values, and
    the option that is still waiting for its argument. *)
Inductive together (here : place) (n : nat) : str -> list (str * str) -> option str -> Prop :=
| to_end : together here n [] [] None
| to_flag c o cs given w : knows here n [DASH; c] o -> arg_kind o = ArgNone ->
    together here n cs given w -> together here n (c :: cs) (([DASH; c], []) :: given) w
| to_optional c o t : knows here n [DASH; c] o -> arg_kind o = ArgOptional -> hd_error t <> Some EQ ->
    together here n (c :: t) [([DASH; c], t)] None
| to_attached c o t : knows here n [DASH; c] o -> arg_kind o = ArgRequired -> t <> [] -> hd_error t <> Some EQ ->
    together here n (c :: t) [([DASH; c], t)] None
| to_waiting c o : knows here n [DASH; c] o -> arg_kind o = ArgRequired -> together here n [c] [] (Some [DASH; c]).

(** [typed here n ws positionals given waiting]: the words [ws], typed behind [n] positional
    arguments of the command [here], are these positional arguments and these options with their
    values, and possibly an option that is waiting for its argument. *)
Inductive typed : place -> nat -> list str -> list str -> list (str * str) -> bool -> Prop :=
| ty_end here n : typed here n [] [] [] false
| ty_dashes here n ws : typed here n (s "--" :: ws) ws [] false
(** an option without argument *)
| ty_flag here n x o ws ps given e :
    knows here n x o -> 3 <= List.length x -> arg_kind o <> ArgRequired ->
    typed here n ws ps given e -> typed here n (x :: ws) ps ((x, []) :: given) e
(** [--option=argument] *)
| ty_attached here n x o t ws ps given e :
    knows here n x o -> 3 <= List.length x -> arg_kind o <> ArgNone ->
    typed here n ws ps given e -> typed here n ((x ++ [EQ] ++ t) :: ws) ps ((x, t) :: given) e
(** [--option argument] *)
| ty_separate here n x o t ws ps given e :
    knows here n x o -> 3 <= List.length x -> arg_kind o = ArgRequired ->
    typed here n ws ps given e -> typed here n (x :: t :: ws) ps ((x, t) :: given) e
| ty_waiting here n x o :
    knows here n x o -> 3 <= List.length x -> arg_kind o = ArgRequired -> typed here n [x] [] [] true
(** short options *)
| ty_together here n cs given0 ws ps given e :
    cs <> [] -> together here n cs given0 None -> no_option here (DASH :: cs) ->
    typed here n ws ps given e -> typed here n ((DASH :: cs) :: ws) ps (given0 ++ given) e
| ty_together_separate here n cs given0 x t ws ps given e :
    together here n cs given0 (Some x) -> no_option here (DASH :: cs) ->
    typed here n ws ps given e -> typed here n ((DASH :: cs) :: t :: ws) ps (given0 ++ (x, t) :: given) e
| ty_together_waiting here n cs given0 x :
    together here n cs given0 (Some x) -> no_option here (DASH :: cs) ->
    typed here n [DASH :: cs] [] given0 true
(** a positional argument that is not the name of a sub-command *)
| ty_word rs c n w ws ps given e :
    ~ option_like w -> c_subcommands c = None \/ Z.of_nat (S n) <> consumed c ->
    typed (rs, c) (S n) ws ps given e -> typed (rs, c) n (w :: ws) (w :: ps) given e
(** the name of a sub-command; its positional arguments are counted anew *)
| ty_command rs c n sub w ws ps given e :
    ~ option_like w -> Z.of_nat (S n) = consumed c -> In sub (subs c) -> names c sub w ->
    typed (c :: rs, sub) 0 ws ps given e -> typed (rs, c) n (w :: ws) (w :: ps) given e.
End Typed.

(** The options of a command may be used in it, and below if it passes them on. *)
Definition anywhere (here : place) (n : nat) (p : place) : Prop := in_scope here p.
(** The same, but the options of the first command only in front of all positional arguments, if
    there are sub-commands. *)
Definition root_first (root : cmd) (here : place) (n : nat) (p : place) : Prop :=
  in_scope here p /\ (fst p <> [] \/ (fst here = [] /\ n = 0) \/ subs root = []).

Record clear_definition (root : cmd) : Prop := {
  (** The names of sub-commands are not empty and contain no newline and no [>]; *)
  clear_names : forall rs c sub x, located root rs c -> In sub (subs c) -> x = c_prog sub \/ In x (c_aliases sub) ->
    x <> [] /\ ~ In LF x /\ ~ In 62%N x;
  (** no word is the name of two siblings; *)
  clear_unique : forall rs c d1 d2 x, located root rs c -> In d1 (subs c) -> In d2 (subs c) ->
    names c d1 x -> names c d2 x -> d1 = d2;
  (** option strings contain no [=]; *)
  clear_strings : forall rs c o x, located root rs c -> In o (c_options c) -> In x (o_strings o) -> ~ In EQ x;
  (** and options of a command and its ancestors with the same string take the same kind of argument. *)
  clear_options : forall rs c p1 p2 o1 o2 x, located root rs c ->
    p1 = (rs, c) \/ In p1 (ancestors rs) -> p2 = (rs, c) \/ In p2 (ancestors rs) ->
    In o1 (c_options (snd p1)) -> In x (o_strings o1) -> In o2 (c_options (snd p2)) -> In x (o_strings o2) ->
    arg_kind o1 = arg_kind o2 }.
