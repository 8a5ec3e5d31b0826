(** * Specification: which completions of zsh are not sorted.

    Written from the manual of zsh (zshmodules, zstyle; zshcompsys, "The Completion System's context",
    [_arguments]). *)
From Verif Require Import Base PyStr Value Cli.
Open Scope list_scope.

(** ** Patterns *)
Inductive part := Any | Just (c : N).
(** Characters that mean something in patterns or in single quotes are not read; a star stands for any
    text. *)
Definition special (c : N) : bool := existsb (N.eqb c) (s "'[]?()|<>#^~\").
Fixpoint read_pattern (t : str) : option (list part) :=
  match t with
  | [] => Some []
  | c :: t' =>
      if special c then None
      else match read_pattern t' with Some r => Some ((if N.eqb c STAR then Any else Just c) :: r) | None => None end
  end.
Inductive fits : list part -> str -> Prop :=
| fits_end : fits [] []
| fits_just c l w : fits l w -> fits (Just c :: l) (c :: w)
| fits_any l u w : fits l w -> fits (Any :: l) (u ++ w).

(** ** Contexts *)

(** [:completion:function:completer:command:argument:tag] *)
Definition context (function completer command argument tag : str) : str :=
  s ":completion:" ++ function ++ s ":" ++ completer ++ s ":" ++ command ++ s ":" ++ argument ++ s ":" ++ tag.
(** the [n]-th argument of an option, the [n]-th argument, the arguments described by [*:..] *)
Definition option_argument (x : str) (n : nat) : str := s "option" ++ x ++ s "-" ++ show_nat n.
Definition normal_argument (n : nat) : str := s "argument-" ++ show_nat n.
Definition rest_arguments : str := s "argument-rest".

(** [zstyle 'PATTERN' sort false] *)
Definition switches_off (line : str) (l : list part) : Prop :=
  exists t, line = s "zstyle '" ++ t ++ s "' sort false" /\ read_pattern t = Some l.
(** The completions are not sorted in this context. *)
Definition unsorted (lines : list str) (c : str) : Prop :=
  exists line l, In line lines /\ switches_off line l /\ fits l c.

(** ** Names *)

(** no colon, no star and nothing special *)
Definition simple (x : str) : Prop := forall c, In c x -> special c = false /\ c <> STAR /\ c <> COLON.
(** a name that is not mistaken for an argument *)
Definition no_argument (prog : str) : Prop := (forall t, prog <> s "option" ++ t) /\ (forall t, prog <> s "argument" ++ t).
Definition simple_tree (root : cmd) : Prop :=
  simple (c_prog root) /\ no_argument (c_prog root) /\
  forall ps c o x, located root ps c -> In o (c_options c) -> In x (o_strings o) -> simple x.
