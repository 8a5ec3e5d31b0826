(** * Specification for C140: the lines that [getent passwd] and [getent group] print. *)
From Verif Require Import Base SpecMimeFile.
Open Scope list_scope.

(** Name, password, number and the other fields of a user or a group *)
Record account := Account { a_name : str; a_password : str; a_number : str; a_rest : list str }.
Definition account_line (a : account) : str := join [COLON] (a_name a :: a_password a :: a_number a :: a_rest a).
Definition getent (accounts : list account) : str := print_lines (map account_line accounts).
(** Fields have no colon and no newline. *)
Definition well_formed (a : account) : Prop :=
  forall x, In x (a_name a :: a_password a :: a_number a :: a_rest a) -> ~ In COLON x /\ ~ In LF x.
(** No blank, tabulator or backslash *)
Definition simple (x : str) : Prop := ~ In SP x /\ ~ In TAB x /\ ~ In BS x.
