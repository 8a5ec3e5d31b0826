(** * Specification: what a user may type and what a parser has to understand.

    Independent of the code under test.  [usage] describes how options, their arguments, the
    names of sub-commands and positional arguments are written on a command line, and what they
    mean: a list of [event]s. *)
From Verif Require Import Base Cli SpecCli BashUtils BashParser.

(** A command and its ancestors, nearest first. *)
Definition place : Type := list cmd * cmd.
Fixpoint ancestors (ps : list cmd) : list place :=
  match ps with [] => [] | p :: ps' => (ps', p) :: ancestors ps' end.

(** The options of [p] may be used at [here]: it is the same command, or an ancestor that passes
    its options on. *)
Definition passes_on (c : cmd) : Prop := c_inherit c <> XFalse.
Definition in_scope (here p : place) : Prop :=
  p = here \/ In p (ancestors (fst here)) /\ passes_on (snd p).

Definition is_prefix (a x : str) : Prop := exists t, x = a ++ t.

(** The long and old-style option strings that abbreviations of options of [p] must not be
    mixed up with. *)
Definition considered (p : place) (x : str) : Prop :=
  exists d o, In o (c_options d) /\ In x (o_strings o) /\ 3 <= List.length x /\
    (d = snd p \/ passes_on (snd p) /\ In d (fst p)).
(** [x] is a way to write the option [o] of [p]: one of its strings, or, if options may be
    abbreviated, a prefix of a long or old-style one that is not a prefix of another one. *)
Definition spelling (p : place) (o : opt) (x : str) : Prop :=
  In o (c_options (snd p)) /\
  (In x (o_strings o) \/
   c_abbrev_opts (snd p) <> XFalse /\ 3 <= List.length x /\
   exists y, In y (o_strings o) /\ is_prefix x y /\ forall z, considered p z -> z <> y -> ~ is_prefix x z).
Definition known (here : place) (x : str) (o : opt) : Prop :=
  exists p, in_scope here p /\ spelling p o x.

(** [x] is a way to write the sub-command [sub] of [c]. *)
Definition names (c sub : cmd) (x : str) : Prop :=
  x = c_prog sub \/ In x (c_aliases sub) \/
  c_abbrev_cmds sub <> XFalse /\ x <> [] /\ is_prefix x (c_prog sub) /\
  forall d, In d (subs c) -> c_prog d <> c_prog sub -> ~ is_prefix x (c_prog d).

(** Words that look like options. *)
Definition option_like (w : str) : Prop := exists c w', w = DASH :: c :: w'.

(** [w] is neither a long or old-style option nor one with an attached argument. *)
Definition no_word (here : place) (w : str) : Prop :=
  forall x o, known here x o -> 3 <= List.length x -> w <> x /\ ~ is_prefix (x ++ [EQ]) w.

(** Short options written together, without the leading dash: flags, then possibly an option with
    an argument; the last result is the variable that is still waiting for its argument. *)
Inductive cluster (here : place) : str -> list event -> option str -> Prop :=
| cl_end : cluster here [] [] None
| cl_flag c o v cs es w : known here [DASH; c] o -> arg_kind o = ArgNone -> opt_variable o = Ok v ->
    cluster here cs es w -> cluster here (c :: cs) (Append v OPT_ISSET :: es) w
| cl_alone c o v : known here [DASH; c] o -> arg_kind o = ArgOptional -> opt_variable o = Ok v ->
    cluster here [c] [Append v OPT_ISSET] None
| cl_attached c o v t : known here [DASH; c] o -> arg_kind o <> ArgNone -> opt_variable o = Ok v ->
    t <> [] -> hd_error t <> Some EQ -> cluster here (c :: t) [Append v t] None
| cl_waiting c o v : known here [DASH; c] o -> arg_kind o = ArgRequired -> opt_variable o = Ok v ->
    cluster here [c] [] (Some v).

(** How the words before the cursor end: normally, behind [--], or with an option whose argument
    is to be completed. *)
Inductive ending := Normal | BehindDashes | Waiting (variable : str).

(** [usage here n ws es e]: the words [ws], typed behind [n] positional arguments of the command
    [here], mean [es] and end as [e]. *)
Inductive usage : place -> nat -> list str -> list event -> ending -> Prop :=
| us_end here n : usage here n [] [] Normal
| us_dashes here n ws : usage here n (s "--" :: ws) (EndOfOptions :: map Positional ws) BehindDashes
(** an option without argument *)
| us_flag here n x o v ws es e :
    known here x o -> 3 <= List.length x -> arg_kind o <> ArgRequired -> opt_variable o = Ok v ->
    usage here n ws es e -> usage here n (x :: ws) (Append v OPT_ISSET :: es) e
(** [--option=argument] *)
| us_attached here n x o v t ws es e :
    known here x o -> 3 <= List.length x -> arg_kind o <> ArgNone -> opt_variable o = Ok v ->
    usage here n ws es e -> usage here n ((x ++ [EQ] ++ t) :: ws) (Append v t :: es) e
(** [--option argument] *)
| us_separate here n x o v t ws es e :
    known here x o -> 3 <= List.length x -> arg_kind o = ArgRequired -> opt_variable o = Ok v ->
    usage here n ws es e -> usage here n (x :: t :: ws) (Append v t :: es) e
| us_waiting here n x o v :
    known here x o -> 3 <= List.length x -> arg_kind o = ArgRequired -> opt_variable o = Ok v ->
    usage here n [x] [] (Waiting v)
(** short options *)
| us_cluster here n cs es0 ws es e :
    cs <> [] -> cluster here cs es0 None -> no_word here (DASH :: cs) ->
    usage here n ws es e -> usage here n ((DASH :: cs) :: ws) (es0 ++ es) e
| us_cluster_separate here n cs es0 v t ws es e :
    cluster here cs es0 (Some v) -> no_word here (DASH :: cs) ->
    usage here n ws es e -> usage here n ((DASH :: cs) :: t :: ws) (es0 ++ Append v t :: es) e
| us_cluster_waiting here n cs es0 v :
    cluster here cs es0 (Some v) -> no_word here (DASH :: cs) ->
    usage here n [DASH :: cs] es0 (Waiting v)
(** a positional argument that is not the name of a sub-command *)
| us_word ps c n w ws es e :
    ~ option_like w -> c_subcommands c = None \/ Z.of_nat (S n) <> consumed c ->
    usage (ps, c) (S n) ws es e -> usage (ps, c) n (w :: ws) (Positional w :: es) e
(** the name of a sub-command; its positional arguments are counted anew *)
| us_command ps c n sub w ws es e :
    ~ option_like w -> Z.of_nat (S n) = consumed c -> In sub (subs c) -> names c sub w ->
    usage (c :: ps, sub) 0 ws es e -> usage (ps, c) n (w :: ws) (Positional w :: es) e.

(** What the word at the cursor and those behind it add. *)
Definition rest_events (e : ending) (w : str) (behind : list str) (es : list event) : Prop :=
  match e with
  | BehindDashes => es = map Positional (w :: behind)
  | Waiting v => es = [Append v w]
  | Normal => (option_like w /\ es = []) \/ (~ option_like w /\ es = [Positional w])
  end.

(** ** Conditions on definitions *)

(** No numbers of several characters in a row (see C12). *)
Definition no_long_numbers (number : str -> option Z) (P : str -> Prop) (Q : str -> Prop) : Prop :=
  forall l, (forall x, In x l -> P x) -> (forall x, Q x -> In x l) ->
  forall p, SpecGlob.consecutive number l p -> forall u, SpecGlob.follows l p u -> List.length u = 1.

(** The names of sub-commands are not empty and consist of characters that are neither special
    in shells nor a colon. *)
Definition name_char (c : N) : bool := Shell.is_safe c && negb (N.eqb c COLON).
Definition good_name (x : str) : Prop := x <> [] /\ forallb name_char x = true.

Record tame_commands (root : cmd) : Prop := {
  tame_names : forall ps c sub x, located root ps c -> In sub (subs c) -> x = c_prog sub \/ In x (c_aliases sub) ->
    good_name x;
  (** No name goes on where the name of a sibling that passes on its options ends. *)
  tame_prefix : forall ps c d1 d2, located root ps c -> In d1 (subs c) -> In d2 (subs c) ->
    passes_on d1 -> is_prefix (c_prog d1) (c_prog d2) -> d1 = d2;
  (** No word is the name of two siblings. *)
  tame_unique : forall ps c d1 d2 x, located root ps c -> In d1 (subs c) -> In d2 (subs c) ->
    names c d1 x -> names c d2 x -> d1 = d2;
  tame_numbers : forall ps c sub, located root ps c -> In sub (subs c) ->
    no_long_numbers When.py_int (names c sub) (fun x => names c sub x /\ x <> c_prog sub) }.

(** Option strings consist of characters that are neither special in patterns nor [=]. *)
Definition plain_options (root : cmd) : Prop :=
  forall ps c o x d, located root ps c -> In o (c_options c) -> In x (o_strings o) -> In d x ->
    SpecGlob.plain d = true /\ d <> EQ.
Record tame_options (root : cmd) : Prop := {
  tame_strings : plain_options root;
  (** No word is a spelling of two options that may be used at the same place. *)
  tame_spelling : forall ps c p1 p2 o1 o2 x, located root ps c ->
    in_scope (ps, c) p1 -> in_scope (ps, c) p2 -> spelling p1 o1 x -> spelling p2 o2 x -> p1 = p2 /\ o1 = o2 }.

(** The same for the spellings of every option (needed by the second parser only). *)
Definition tame_option_numbers (root : cmd) : Prop :=
  forall ps c o, located root ps c -> In o (c_options c) ->
  no_long_numbers When.py_int (spelling (ps, c) o) (spelling (ps, c) o).

(** Somewhere in the definition there is a positional argument or a sub-command. *)
Definition has_positionals (root : cmd) : Prop :=
  exists ps c, located root ps c /\ (c_positionals c <> [] \/ subs c <> []).
Definition is_positional (e : event) : bool := match e with Positional _ => true | _ => false end.
