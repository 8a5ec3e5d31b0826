(** * Specification for C141: names of locales, character sets and time zones. *)
From Verif Require Import Base.
Open Scope list_scope.

(** A name has no white space and no character that is special in a list of words. *)
Definition name_character (c : N) : bool := negb (is_space c) && negb (memc c ([BS; COLON; DQ; SQ; 36; 96]%N)).
Definition a_name (x : str) : Prop := x <> [] /\ forall c, In c x -> name_character c = true.
(** A file below [/usr/share/zoneinfo] is a folder or none, and a name. *)
Definition zone_file (x : str) : str := s "/usr/share/zoneinfo/" ++ x.
(** The same zones are there again in the folders [posix] and [right]. *)
Definition again (x : str) : Prop := exists y, x = s "posix/" ++ y \/ x = s "right/" ++ y.
