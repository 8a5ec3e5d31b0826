(** * Specification: the parser of a Python file. *)
From Verif Require Import Base PyLoader.
Open Scope list_scope.

(** A name is bound to the parser. *)
Definition bound (m : namespace) (i : nat) : Prop := exists n, In (n, Parser i) m.
(** The parsers that have no parent; [children i]: the parsers of the sub-commands of the parser [i]. *)
Definition root_parser (children : nat -> list nat) (m : namespace) (i : nat) : Prop :=
  bound m i /\ forall j, ~ In i (children j).
Definition only_root (children : nat -> list nat) (m : namespace) (i : nat) : Prop :=
  root_parser children m i /\ forall j, root_parser children m j -> j = i.

(** Modules that are written in the usual way: each parser has one name, and if a sub-parser has a
    name then what [add_subparsers] answered has one too; the latter has only sub-parsers. *)
Definition usual (children : nat -> list nat) (m : namespace) : Prop :=
  (forall n n' i, In (n, Parser i) m -> In (n', Parser i) m -> n = n') /\ NoDup (map fst m) /\
  (forall i j, bound m i -> In i (children j) -> exists n l, In (n, Subparsers l) m /\ In i l) /\
  (forall n l i, In (n, Subparsers l) m -> In i l -> exists j, In i (children j)).

(** The file is the one that importing finds: no module of this name was loaded and no directory
    of [sys.path] has one; the name has no dot. *)
Definition own_name (py : python) (dir name : str) : Prop :=
  ~ In DOT name /\ py_loaded py name = None /\
  forall d, In d (py_path py) -> d <> dir -> py_file py (path_join d (name ++ s ".py")) = None.
