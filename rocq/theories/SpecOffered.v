(** * Specification: what the tests of conditions mean, and which options, positional arguments and
    sub-commands are to be offered for a command line.

    Independent of the code under test.  A command line is given by its positional arguments
    (which include the names of sub-commands) and by the options in it with their values, in
    order. *)
From Verif Require Import Base Value StrUtils When Cli SpecCli SpecWhen SpecParser.
Open Scope list_scope.

Section CommandLine.
(** the value matches the regular expression, without regard to case *)
Variable matches : str -> bool -> str -> bool.
Variable positionals : list str.
Variable given : list (str * str).

(** ** Tests *)

Definition is_given (x : str) : Prop := exists v, In (x, v) given.
(** [v] is a value of one of the options [os]: of the last one, or of [any] *)
Definition value_of (any : bool) (os : list str) (v : str) : Prop :=
  exists before x after, given = before ++ (x, v) :: after /\ In x os /\
    (any = true \/ forall y u, In (y, u) after -> ~ In y os).
Definition same (ic : bool) (a b : str) : Prop := if ic then lower a = lower b else a = b.
Definition compares (a : Z) (op : str) (b : Z) : Prop :=
  (op = s "==" /\ a = b \/ op = s "!=" /\ a <> b \/ op = s "<=" /\ a <= b \/ op = s ">=" /\ a >= b \/
   op = s "<" /\ a < b \/ op = s ">" /\ a > b)%Z.
(** the [n]th positional argument; [n] counts from one *)
Definition nth_positional (n : Z) (w : str) : Prop := (1 <= n)%Z /\ nth_error positionals (Z.to_nat (n - 1)) = Some w.
Definition test_holds (o : wobj) : Prop :=
  match o with
  | HasOption os => exists x, In x os /\ is_given x
  | OptionIs os values ic any => exists v w, value_of any os v /\ In w values /\ same ic v w
  | OptionMatch os regex ic any => exists v, value_of any os v /\ matches regex ic v = true
  | PositionalCount op n => compares (Z.of_nat (List.length positionals)) op n
  | PositionalContains ic n values => exists w v, nth_positional n w /\ In v values /\ same ic w v
  end.
Fixpoint term_holds (t : term wobj) : Prop :=
  match t with
  | Test o => test_holds o
  | Negation t => ~ term_holds t
  | Group l => cond_holds l
  end
with cond_holds (l : conds wobj) : Prop :=
  match l with
  | One t => term_holds t
  | And l t => cond_holds l /\ term_holds t
  | Or l t => cond_holds l \/ term_holds t
  end.

(** ** Offers *)

(** the number of positional arguments that the ancestors [ps] take, names of sub-commands included *)
Definition taken (ps : list cmd) : Z := sum (map consumed ps).
(** The positional arguments select the command [c] with the ancestors [ps]. *)
Fixpoint selected (ps : list cmd) (c : cmd) : Prop :=
  match ps with
  | [] => True
  | p :: ps' => selected ps' p /\ exists w, nth_positional (taken ps) w /\ names p c w
  end.
Definition silent (l : list str) : Prop := forall x, In x l -> ~ is_given x.

(** Options are not offered if a final option, a conflicting one, or (unless it may be repeated)
    the option itself is given; and only in their command, or below if it passes its options on. *)
Definition option_offered (ps : list cmd) (c : cmd) (o : opt) : Prop :=
  (forall c' f, In c' (c :: ps) -> In f (c_options c') -> o_final f = true -> silent (o_strings f)) /\
  (forall p, In p (c_options c) -> opt_eqb p o = false -> share_group o p -> silent (o_strings p)) /\
  (o_repeatable o = XFalse -> silent (o_strings o)) /\
  (c_subcommands c <> None -> ~ passes_on c -> (Z.of_nat (List.length positionals) < taken (c :: ps))%Z) /\
  selected ps c.
(** A positional argument is offered if those before it are given. *)
Definition positional_offered (ps : list cmd) (c : cmd) (p : pos) : Prop :=
  let before := (taken ps + p_number p - 1)%Z in
  (if p_repeatable p then before <= Z.of_nat (List.length positionals) else Z.of_nat (List.length positionals) = before)%Z /\
  selected ps c.
(** Names of sub-commands are offered behind the positional arguments of the command. *)
Definition subcommands_offered (ps : list cmd) (c : cmd) : Prop :=
  Z.of_nat (List.length positionals) = (taken (c :: ps) - 1)%Z /\ selected ps c.
End CommandLine.

(** Tests that name options, count positionals from one, and do not repeat a value. *)
Definition sound_test (o : wobj) : Prop :=
  match o with
  | OptionIs os _ _ _ | OptionMatch os _ _ _ | HasOption os => forall x, In x os -> is_valid_option_string x = true
  | PositionalCount op _ => In op [s "=="; s "!="; s "<="; s ">="; s "<"; s ">"]
  | PositionalContains ic n values => (1 <= n)%Z /\ NoDup (if ic then map lower values else values)
  end.
