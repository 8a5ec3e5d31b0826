(** * Specification: the specifications that the function for a command hands to [_arguments], and
    what [_arguments] offers.

    Independent of the code under test. *)
From Verif Require Import Base Value StrUtils Cli SpecCli SpecParser SpecOffered SpecZsh.
Open Scope list_scope.

(** The array that results from [args=(array)] followed by [condition && args+=(text)] for each of
    [added]. *)
Fixpoint array_after (holds : str -> bool) (array : list str) (added : list (str * str)) : option (list str) :=
  match added with
  | [] => Some array
  | (k, text) :: added' =>
      if holds k then
        match zsh_array text with
        | Some words => array_after holds (array ++ words) added'
        | None => None
        end
      else array_after holds array added'
  end.
Fixpoint read_specs (words : list str) : option (list zspec) :=
  match words with
  | [] => Some []
  | w :: l =>
      match read_spec w, read_specs l with
      | Some z, Some r => Some (z :: r)
      | _, _ => None
      end
  end.

(** ** The parts of a command line definition that are to be specified *)

(** The option [o] of [owner], one of a command and its ancestors (nearest first); it is hidden by
    an option of a nearer command with the same strings. *)
Definition option_of (chain : list cmd) (owner : cmd) (o : opt) : Prop :=
  exists near far, chain = near ++ owner :: far /\ In o (c_options owner) /\
    forall d p, In d near -> In p (c_options d) -> same_strings o p = false.
(** The option strings that exclude each other, as strings of options of one command. *)
Definition conflicts_with (owner : cmd) (o : opt) (y : str) : Prop :=
  exists p, In p (c_options owner) /\ opt_eqb p o = false /\ share_group o p /\ In y (o_strings p).

Inductive item :=
| ItemOption (owner : cmd) (o : opt) (x : str)
| ItemPositional (p : place) (q : pos)
| ItemCommands (p : place).
(** The items of the command [c] with the ancestors [ps]: its options, those of the ancestors
    only if it says so, and the positional arguments and sub-commands of all of them. *)
Definition has_item (ps : list cmd) (c : cmd) (i : item) : Prop :=
  match i with
  | ItemOption owner o x => option_of (if xbool_eqb (c_inherit c) XFalse then [c] else c :: ps) owner o /\ In x (o_strings o)
  | ItemPositional p q => (p = (ps, c) \/ In p (ancestors ps)) /\ In q (c_positionals (snd p))
  | ItemCommands p => (p = (ps, c) \/ In p (ancestors ps)) /\ c_subcommands (snd p) <> None
  end.
Definition when_of (i : item) : option str :=
  match i with ItemOption _ o _ => o_when o | ItemPositional _ q => p_when q | ItemCommands _ => None end.

Section Says.
Variable option_action : opt -> str.
Variable positional_action : place -> pos -> str.
Variable command_action : place -> str.

(** the help or else the name *)
Definition message_of (q : pos) : str :=
  match p_help q with
  | Some h => if nonempty h then h else match p_metavar q with Some m => if nonempty m then m else s " " | None => s " " end
  | None => match p_metavar q with Some m => if nonempty m then m else s " " | None => s " " end
  end.
(** The specification [z] says what is to be said about the item [i]. *)
Definition says (i : item) (z : zspec) : Prop :=
  match i, z with
  | ItemOption owner o x, SpecOption z =>
      exists conflicting, (forall y, In y conflicting <-> conflicts_with owner o y) /\
        describes_option o conflicting (option_action o) x z
  | ItemPositional p q, SpecArgument a =>
      za_number a = (if p_repeatable q then None else Some (Z.to_nat (taken (fst p) + p_number q))) /\
      za_message a = message_of q /\ za_action a = positional_action p q
  | ItemCommands p, SpecArgument a =>
      za_number a = Some (Z.to_nat (taken (snd p :: fst p))) /\ za_action a = command_action p
  | _, _ => False
  end.
End Says.

(** ** Definitions all of whose texts can be written down *)

Definition tame_text (x : option str) : Prop := match x with Some x => tame [COLON] x = true | None => True end.
Record plain_command (c : cmd) : Prop := {
  pl_wraps : c_wraps c = None;
  pl_strings : forall o x, In o (c_options c) -> In x (o_strings o) -> plain_option_string x;
  pl_options : forall o, In o (c_options c) -> plain_description (o_help o) /\ plain_metavar (o_metavar o) /\ o_sep o <> SepInherit;
  pl_positionals : forall q, In q (c_positionals c) -> tame_text (p_help q) /\ tame_text (p_metavar q) }.

Definition plain_texts (act : str) : Prop := plain_action act /\ simple_action act.

(** The condition of [i] holds: there is none, or its text in zsh ([condition]) is true. *)
Definition item_active (condition : str -> option str) (holds : str -> bool) (i : item) : Prop :=
  when_of i = None \/ exists w k, when_of i = Some w /\ condition w = Some k /\ holds k = true.
(** The array text and the texts added to it make [specs]; they are the specifications of the items of
    the command whose conditions hold, and of nothing else. *)
Definition specified (option_action : opt -> str) (positional_action : place -> pos -> str) (command_action : place -> str)
    (condition : str -> option str) (holds : str -> bool) (ps : list cmd) (c : cmd)
    (array : str) (added : list (str * str)) (specs : list zspec) : Prop :=
  exists words0 words items, zsh_array array = Some words0 /\ array_after holds words0 added = Some words /\
    read_specs words = Some specs /\ Forall2 (says option_action positional_action command_action) items specs /\
    forall i, In i items <-> has_item ps c i /\ item_active condition holds i.

(** ** What [_arguments] offers *)

(** [specs] are its specifications, and [given] are the options on the command line. *)
Definition zsh_offers (specs : list zspec) (given : list str) (x : str) : Prop :=
  exists z, In (SpecOption z) specs /\ z_name z = x /\ z_hidden z = false /\
    (z_many z = true \/ ~ In x given) /\
    forall y z', In y given -> In (SpecOption z') specs -> z_name z' = y -> ~ In x (z_excludes z') /\ ~ In (s "-") (z_excludes z').

(** Which option strings are to be offered.  [chain] are the command and the ancestors whose options
    are used; [usable] tells if the condition of an option holds. *)
Definition option_in (chain : list cmd) (owner : cmd) (o : opt) : Prop := In owner chain /\ In o (c_options owner).
Definition quiet (given l : list str) : Prop := forall x, In x l -> ~ In x given.
Definition wanted (chain : list cmd) (usable : opt -> Prop) (given : list str) (x : str) : Prop :=
  exists owner o, option_in chain owner o /\ In x (o_strings o) /\ usable o /\ o_hidden o = false /\
    (o_repeatable o = XFalse -> quiet given (o_strings o)) /\
    (forall p, In p (c_options owner) -> opt_eqb p o = false -> share_group o p -> quiet given (o_strings p)) /\
    (forall d f, option_in chain d f -> o_final f = true -> quiet given (o_strings f)).
(** No string stands for two options. *)
Definition distinct_strings (chain : list cmd) : Prop :=
  forall d1 o1 d2 o2 x, option_in chain d1 o1 -> option_in chain d2 o2 -> In x (o_strings o1) -> In x (o_strings o2) -> d1 = d2 /\ o1 = o2.

(** A command uses the options of its ancestors if it says so. *)
Definition chain_of (ps : list cmd) (c : cmd) : list cmd := if xbool_eqb (c_inherit c) XFalse then [c] else c :: ps.
Definition usable_option (condition : str -> option str) (holds : str -> bool) (o : opt) : Prop :=
  o_when o = None \/ exists w k, o_when o = Some w /\ condition w = Some k /\ holds k = true.

(** The specification [a] says how the argument behind [n] others is completed: the one with its
    number, or else the one for the rest of the arguments. *)
Definition zsh_completes (specs : list zspec) (n : nat) (a : zargument) : Prop :=
  In (SpecArgument a) specs /\
  (za_number a = Some (S n) \/ za_number a = None /\ forall b, In (SpecArgument b) specs -> za_number b <> Some (S n)).
(** The positional arguments of [c] are in order if only the last one is repeatable, all those in
    front of it are there, and there are no sub-commands behind it. *)
Record orderly (usable : pos -> Prop) (c : cmd) : Prop := {
  ord_last : forall q q', In q (c_positionals c) -> In q' (c_positionals c) -> p_repeatable q = true -> q' = q \/ (p_number q' < p_number q)%Z;
  ord_all : forall q n, In q (c_positionals c) -> p_repeatable q = true -> (1 <= n < p_number q)%Z ->
    exists q', In q' (c_positionals c) /\ p_number q' = n /\ usable q';
  ord_subs : forall q, In q (c_positionals c) -> p_repeatable q = true -> c_subcommands c = None }.
