(** * Specification for C138: the language that the environment asks for. *)
From Verif Require Import Base.
Open Scope list_scope.

(** The variables, the first that is set and not empty counts. *)
Definition variables : list str := [s "LANGUAGE"; s "LC_ALL"; s "LC_MESSAGES"; s "LANG"].
Definition not_set (env : str -> option str) (variable : str) : Prop := env variable = None \/ env variable = Some [].
(** The environment asks for the locale [x]. *)
Definition asks_for (env : str -> option str) (x : str) : Prop :=
  x <> [] /\ exists before variable after,
    variables = before ++ variable :: after /\ env variable = Some x /\ Forall (not_set env) before.
(** It asks for nothing. *)
Definition silent (env : str -> option str) : Prop := Forall (not_set env) variables.

(** A locale is the language, then optionally [_] and the country, [.] and the encoding, [@] and a variant;
    in [LANGUAGE] several of them may be written with colons between them. The first one counts here. *)
Definition language_of (x language : str) : Prop :=
  exists rest, x = language ++ rest /\ (forall c, In c language -> ~ In c (s "_.@:")) /\
    (rest = [] \/ exists c r, rest = c :: r /\ In c (s "_.@:")).
(** Small and big letters are not distinguished. *)
Definition is_german (language : str) : Prop := In language [s "de"; s "De"; s "dE"; s "DE"].
