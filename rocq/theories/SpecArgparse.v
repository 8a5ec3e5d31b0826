(** * Specification vocabulary for the conversion of argparse's parsers. *)
From Verif Require Import Base PyStr Value Cli Argparse SpecScheme SpecCli.
Open Scope list_scope.

(** ** Parts of a parser *)
Definition items_of (p : parser) : list item := let 'Parser _ _ _ items _ := p in items.
Definition groups_of (p : parser) : list (list (list str)) := let 'Parser _ _ _ _ groups := p in groups.
(** the options and the positional arguments, in the order they were added *)
Definition actions (l : list item) : list action := flat_map (fun i => match i with Act a => [a] | Sub _ _ => [] end) l.
Definition options (l : list item) : list action := filter (fun a => match a_strings a with [] => false | _ => true end) (actions l).
Definition positionals (l : list item) : list action := filter (fun a => match a_strings a with [] => true | _ => false end) (actions l).
Definition subparsers (l : list item) : list (list (str * parser) * list (str * option str)) :=
  flat_map (fun i => match i with Act _ => [] | Sub choices helps => [(choices, helps)] end) l.

(** ** What one argument becomes *)

(** The placeholder: the metavar, or the destination if there is none. *)
Inductive placeholder (a : action) : str -> Prop :=
| ph_metavar m : m <> [] -> a_metavar a = MText m -> placeholder a m
| ph_dest : a_metavar a = MNone \/ a_metavar a = MText [] \/ a_metavar a = MTuple [] -> placeholder a (a_dest a).

(** No completer was given with [complete()]. *)
Definition not_given (a : action) : Prop := a_complete a = None \/ a_complete a = Some [].
Definition no_choices (a : action) : Prop :=
  a_choices a = ChNone \/ a_choices a = ChValue (VList []) \/ a_choices a = ChValue (VDict []) \/
  exists start stop step, a_choices a = ChRange start stop step /\ (step <> 0%Z -> forall x, ~ in_pyrange start stop step x).

(** The completer of an argument: the one given with [complete()]; else the choices; a range of numbers
    offers exactly the numbers of the Python range. *)
Inductive completes (a : action) : list value -> Prop :=
| co_given l : l <> [] -> a_complete a = Some l -> completes a l
| co_choices v : not_given a -> v <> VList [] -> v <> VDict [] -> a_choices a = ChValue v ->
    completes a [VStr (s "choices"); v]
| co_range start stop step first last by_ : not_given a -> a_choices a = ChRange start stop step ->
    (forall x, in_range first last by_ x <-> in_pyrange start stop step x) -> by_ <> 1%Z ->
    completes a [VStr (s "range"); VInt first; VInt last; VInt by_]
| co_interval start stop step first last : not_given a -> a_choices a = ChRange start stop step ->
    (forall x, in_range first last 1 x <-> in_pyrange start stop step x) ->
    completes a [VStr (s "range"); VInt first; VInt last]
| co_none : not_given a -> no_choices a -> completes a [VStr (s "none")].

Definition suppressed (a : action) : Prop := a_help a = Some SUPPRESS.

(** An option. *)
Record option_of (a : action) (o : opt) : Prop := {
  oo_strings : o_strings o = a_strings a;
  oo_flag : a_kind a <> KStore -> o_complete o = None /\ o_metavar o = None;
  oo_argument : a_kind a = KStore -> exists l m, o_complete o = Some l /\ completes a l /\ o_metavar o = Some m /\ placeholder a m;
  oo_optional : o_optional_arg o = true <-> a_nargs a = NText (s "?");
  oo_hidden : o_hidden o = true <-> suppressed a;
  oo_help : o_help o = if o_hidden o then None else a_help a;
  oo_final : o_final o = true <-> a_kind a = KHelp \/ a_kind a = KVersion \/ a_final a = true;
  oo_repeatable : o_repeatable o = a_repeatable a;
  oo_when : o_when o = a_when a }.

(** The [n]-th positional argument. *)
Record positional_of (n : nat) (a : action) (q : pos) : Prop := {
  po_number : p_number q = Z.of_nat n;
  po_argument : a_kind a = KStore -> completes a (p_complete q);
  po_metavar : exists m, p_metavar q = Some m /\ placeholder a m;
  po_help : p_help q = a_help a;
  po_repeatable : p_repeatable q = false <-> a_nargs a = NNone \/ a_nargs a = NInt 1 \/ a_nargs a = NText (s "?");
  po_when : p_when q = a_when a }.

(** The [n]-th, the next, ... *)
Inductive positionals_of : nat -> list action -> list pos -> Prop :=
| po_nil n : positionals_of n [] []
| po_cons n a l q r : positional_of n a q -> positionals_of (S n) l r -> positionals_of n (a :: l) (q :: r).

(** ** What a parser becomes *)

(** The text given if it is there, else the parser's own. *)
Definition first_of (x y : option str) : option str := match x with Some [] | None => y | Some t => Some t end.
(** The help of a sub-command: the help given to [add_parser]; names have one help at most. *)
Definition helped (helps : list (str * option str)) (name : str) (h : option str) : Prop :=
  In (name, h) helps \/ (h = None /\ ~ In name (map fst helps)).

Inductive converted : parser -> str -> option str -> cmd -> Prop :=
| converted_intro own_prog own_description aliases items groups name description c :
    c_prog c = match name with [] => own_prog | _ => name end ->
    c_help c = first_of description own_description ->
    c_aliases c = aliases ->
    Forall2 option_of (options items) (c_options c) ->
    positionals_of 1 (positionals items) (c_positionals c) ->
    (subparsers items = [] /\ c_subcommands c = None \/
     exists choices helps l, subparsers items = [(choices, helps)] /\ c_subcommands c = Some l /\
       Forall2 (fun nq sub => exists h, helped helps (fst nq) h /\ converted (snd nq) (fst nq) h sub) choices l) ->
    converted (Parser own_prog own_description aliases items groups) name description c.

(** ** Mutually exclusive groups *)
Definition same_group (p : parser) (a b : action) : Prop :=
  exists g, In g (groups_of p) /\ In (a_strings a) g /\ In (a_strings b) g.
(** What argparse ensures: the members of groups are arguments of the parser, in one group each, and no
    two options have a string in common. *)
Record orderly (p : parser) : Prop := {
  or_members : forall g x, In g (groups_of p) -> In x g -> x = [] \/ In x (map a_strings (options (items_of p)));
  or_once : forall i j g h x, nth_error (groups_of p) i = Some g -> nth_error (groups_of p) j = Some h ->
    x <> [] -> In x g -> In x h -> i = j;
  or_disjoint : forall a b x, In a (options (items_of p)) -> In b (options (items_of p)) ->
    In x (a_strings a) -> In x (a_strings b) -> a_strings a = a_strings b }.

(** ** Parsers that can be converted *)
Definition arity_ok (a : action) : Prop := a_kind a <> KBoolean /\ a_kind a <> KOther.
Definition one_metavar (a : action) : Prop := forall x l, a_metavar a <> MTuple (x :: l).
(** The name of a sub-command. *)
Definition called (nq : str * parser) : str :=
  let '(n, Parser own_prog _ _ _ _) := nq in match n with [] => own_prog | _ => n end.
Inductive supported : parser -> Prop :=
| supported_intro own_prog own_description aliases items groups :
    (forall x, In x aliases -> one_word x) ->
    (forall a, In a (options items) -> arity_ok a /\ (a_kind a = KStore -> one_metavar a) /\
       (forall x, In x (a_strings a) -> option_string x) /\
       (a_nargs a = NText (s "?") -> a_kind a = KStore) /\
       (suppressed a -> a_repeatable a <> XTrue)) ->
    (forall a, In a (positionals items) -> arity_ok a /\ one_metavar a) ->
    (length (subparsers items) <= 1)%nat ->
    (forall choices helps, In (choices, helps) (subparsers items) ->
       NoDup (map called choices) /\ (forall n q, In (n, q) choices -> supported q) /\
       (forall x, In x (map fst helps) -> In x (map fst choices))) ->
    supported (Parser own_prog own_description aliases items groups).
