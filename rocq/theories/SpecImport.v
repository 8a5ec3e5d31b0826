(** * Specification: definitions without the values that only the validation accepts. *)
From Verif Require Import Base Dict Value DictSource SpecValid.
Local Open Scope string_scope.
Local Open Scope list_scope.

(** None of the parameters is written as [null]. *)
Definition not_null (names : list String.string) (v : value) : Prop :=
  forall d k, v = VDict d -> In k names -> vget (s k) d <> Some VNone.
(** The entries of the list under [k]. *)
Definition listed (k : String.string) (v x : value) : Prop :=
  exists d l, v = VDict d /\ vget (s k) d = Some (VList l) /\ In x l.

Definition without_null (v : value) : Prop :=
  not_null ["options"; "positionals"] v /\
  (forall o, listed "options" v o -> not_null ["optional_arg"; "final"; "hidden"; "nosort"; "group"] o) /\
  (forall p, listed "positionals" v p -> not_null ["repeatable"; "nosort"] p).

(** The name of the program has no white space besides blanks. *)
Definition plain_prog (v : value) : Prop :=
  forall d p ch, v = VDict d -> vget (s "prog") d = Some (VStr p) -> In ch p -> is_space ch = true -> ch = SP.
