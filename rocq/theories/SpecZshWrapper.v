(** * Specification: which words belong to a program's own options.

    A program that wraps another one takes its own options out of the command line and passes the other
    words on. *)
From Verif Require Import Base PyStr Value Cli SpecCli.
Open Scope list_scope.

(** A long option [--name] or an old-style one [-name]; a short one [-c]. *)
Definition has_name (o : opt) (x : str) : Prop := In x (o_strings o) /\ 2 < List.length x.
Definition has_letter (o : opt) (c : N) : Prop := In [DASH; c] (o_strings o).

Section Own.
  Variable options : list opt.

  (** ** Words that use an option by its name *)

  (** The option is complete: [--flag], [--optional], [--optional=value], [--required=value]. *)
  Inductive name_alone (w : str) : Prop :=
  | by_name o : In o options -> has_name o w -> arg_kind o <> ArgRequired -> name_alone w
  | by_value o x v : In o options -> has_name o x -> arg_kind o <> ArgNone -> w = x ++ s "=" ++ v -> name_alone w.
  (** The argument is the next word. *)
  Inductive name_waits (w : str) : Prop :=
  | by_waiting o : In o options -> has_name o w -> arg_kind o = ArgRequired -> name_waits w.

  (** ** Words made of the letters of short options *)
  Definition letter (k : argkind) (c : N) : Prop := exists o, In o options /\ has_letter o c /\ arg_kind o = k.
  Inductive letters_alone (w : str) : Prop :=
  | by_flags l : l <> [] -> Forall (letter ArgNone) l -> w = DASH :: l -> letters_alone w
  | by_required l c v : Forall (letter ArgNone) l -> letter ArgRequired c -> v <> [] -> w = DASH :: l ++ c :: v -> letters_alone w
  | by_optional l c v : Forall (letter ArgNone) l -> letter ArgOptional c -> w = DASH :: l ++ c :: v -> letters_alone w.
  Inductive letters_wait (w : str) : Prop :=
  | by_letter l c : Forall (letter ArgNone) l -> letter ArgRequired c -> w = DASH :: l ++ [c] -> letters_wait w.

  (** ** A word that is a name is not read as letters. *)
  Definition a_name (w : str) : Prop := name_alone w \/ name_waits w.
  Definition own_alone (w : str) : Prop := name_alone w \/ ~ a_name w /\ letters_alone w.
  Definition own_waits (w : str) : Prop := name_waits w \/ ~ a_name w /\ letters_wait w.

  (** One mark for each word: [true] if it is passed on. *)
  Inductive reading : list str -> list bool -> Prop :=
  | r_end : reading [] []
  | r_keep w ws l : ~ own_alone w -> ~ own_waits w -> reading ws l -> reading (w :: ws) (true :: l)
  | r_alone w ws l : own_alone w -> reading ws l -> reading (w :: ws) (false :: l)
  | r_waits w a ws l : own_waits w -> reading ws l -> reading (w :: a :: ws) (false :: false :: l)
  | r_last w : own_waits w -> reading [w] [false].

  (** ** Restrictions *)

  (** The names consist of letters, digits, and [_ - . + : @ % /], with one or two dashes in front. The
      letters are not brackets, circumflexes, backslashes and single quotes. *)
  Definition name_char (c : N) : bool := is_word c || memc c (s "-.+:@%/").
  Definition simple_string (x : str) : Prop :=
    (exists c, x = [DASH; c] /\ ~ In c (s "[]^\'-")) \/
    (exists c n, (x = DASH :: c :: n /\ n <> [] \/ x = DASH :: DASH :: c :: n) /\ c <> DASH /\ Forall (fun d => name_char d = true) (c :: n)).
  Definition simple_options : Prop := forall o x, In o options -> In x (o_strings o) -> simple_string x.
  (** No string belongs to options that take arguments in different ways. *)
  Definition consistent : Prop := forall o o' x, In o options -> In o' options -> In x (o_strings o) -> In x (o_strings o') -> arg_kind o = arg_kind o'.
End Own.

(** The words with the mark [true]. *)
Fixpoint passed_on (l : list bool) (ws : list str) : list str :=
  match l, ws with
  | b :: l', w :: ws' => (if b then [w] else []) ++ passed_on l' ws'
  | _, _ => []
  end.
