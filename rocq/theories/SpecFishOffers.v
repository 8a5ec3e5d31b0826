(** * Specification: what the [complete] commands of fish offer.

    Refers to the command line (Cli.v), to what the generated functions answer (FishRuntime.v), and
    to the meaning of fish scripts (SpecFish.v). *)
From Coq Require Import Permutation.
From Verif Require Import Base Value StrUtils Shell When SpecWhen Cli SpecCli SpecParser FishUtils SpecFish FishConditions FishRuntime SpecOffered.
Open Scope list_scope.

(** ** Command lines that can be written without loss *)

(** no backslash and no backtick (see C04 and C57) *)
Definition clean (l : list str) : Prop := forall x, In x l -> ~ In BS x /\ ~ In BTICK x.
Definition clean_help (h : option str) : Prop := forall x, h = Some x -> clean [x].
(** one or two dashes, and no third one *)
Definition dashes_ok (x : str) : Prop := exists d y, d <> DASH /\ (x = DASH :: d :: y \/ x = DASH :: DASH :: d :: y).
(** the names on the way to a command are not empty and no command has its own name as an alias *)
Fixpoint sound_names (ps : list cmd) (c : cmd) : Prop :=
  match ps with
  | [] => True
  | p :: ps' => c_prog c <> [] /\ ~ In (c_prog c) (c_aliases c) /\ clean (c_prog c :: c_aliases c) /\ sound_names ps' p
  end.
Definition no_command_arg (c : cmd) : Prop :=
  forall rs d p, located c rs d -> In p (c_positionals d) -> is_command_arg (p_complete p) = false.
Record clean_scope (completer : list value -> list str) (ps : list cmd) (c : cmd) : Prop := {
  scope_names : sound_names ps c;
  scope_strings : forall c' o, In c' (c :: ps) -> In o (c_options c') -> clean (o_strings o);
  scope_dashes : forall o, In o (c_options c) -> Forall dashes_ok (o_strings o);
  scope_help : (forall o, In o (c_options c) -> clean_help (o_help o)) /\ (forall p, In p (c_positionals c) -> clean_help (p_help p));
  scope_completer : forall l, clean (completer l);
  scope_before : c_subcommands c <> None -> ~ passes_on c -> c_positionals c = [];
  scope_command_arg : no_command_arg c }.
(** The text [w] is the condition [cond], and its tests are sound. *)
Definition sound_when (ere : str -> bool) (w : option str) (cond : option (conds wobj)) : Prop :=
  match w with
  | Some (c :: x) => exists l, cond = Some l /\ parse_when ere (c :: x) = Ok (map wtok_of (conds_syms l)) /\
      forall o, In (STest o) (conds_syms l) -> sound_test o /\ clean (test_arguments o)
  | _ => cond = None
  end.

(** ** Offers *)
Section Offers.
Variable matches : str -> bool -> str -> bool.
Variable incomplete : list str -> bool.   (* the word at the cursor is the start of one of these *)
Variable q : query.                       (* the command line, as it is understood *)
Variable e : env.
Variable prog : str.
Variable ere : str -> bool.
Notation truth := (fish_truth matches incomplete q e).
Notation P := (q_positionals q).
Notation G := (q_options q).

Definition when_holds (cond : option (conds wobj)) : Prop :=
  match cond with Some l => cond_holds matches P G l | None => True end.
(** All conditions of [k] can be evaluated, and they are true exactly if [offered]. *)
Definition offers (k : completion) (offered : Prop) : Prop :=
  k_command k = [prog] /\
  ((forall x, In x (k_conditions k) -> fish_eval truth x = Some true) <-> offered) /\
  forall x, In x (k_conditions k) -> exists b, fish_eval truth x = Some b.
(** [k] completes the option [o] of [c], and nothing else.  A hidden option is only offered if the
    user has begun to type it. *)
Definition option_says (ps : list cmd) (c : cmd) (o : opt) (k : completion) : Prop :=
  Permutation (k_options k) (o_strings o) /\
  k_description k = match o_help o with Some x => [x] | None => [] end /\
  requires (k_flags k) = has_required_arg o /\ keep_order (k_flags k) = o_nosort o /\
  forall cond, sound_when ere (o_when o) cond ->
  offers k (option_offered P G ps c o /\
     (o_hidden o = true -> (exists x, In x (o_strings o) /\ is_given G x) \/ incomplete (o_strings o) = true) /\
     when_holds cond).
Definition positional_says (ps : list cmd) (c : cmd) (p : pos) (k : completion) : Prop :=
  k_options k = [] /\
  k_description k = match p_help p with Some x => [x] | None => [] end /\
  requires (k_flags k) = true /\ keep_order (k_flags k) = p_nosort p /\
  forall cond, sound_when ere (p_when p) cond ->
  offers k (positional_offered P ps c p /\ when_holds cond).
Definition subcommands_says (ps : list cmd) (c : cmd) (k : completion) : Prop :=
  k_options k = [] /\ offers k (subcommands_offered P ps c).
End Offers.
