(** * Specification for C119: what versions of bash-completion are recent. *)
From Coq Require Import List.
Import ListNotations.
Open Scope nat_scope.
Open Scope list_scope.

(** A version is at least 2.12: numbers are compared as numbers, and missing numbers are 0. *)
Definition since_2_12 (parts : list nat) : Prop :=
  exists a b rest, parts ++ [0; 0] = a :: b :: rest /\ (2 < a \/ a = 2 /\ 12 <= b).
