(** * Specification for words that are lists of keys with values, like [ro,size=10,mode=]: what was
    typed, and which word breaks are in it.

    Independent of the code under test. *)
From Verif Require Import Base SpecBashWords SpecValueList.
Open Scope list_scope.

(** One element: a key, alone or with a value. *)
Definition pair_text (sep2 : N) (p : str * option str) : str := match p with (k, None) => k | (k, Some v) => k ++ [sep2] ++ v end.
Definition pair_ok (sep1 sep2 : N) (p : str * option str) : Prop :=
  ~ In sep1 (fst p) /\ ~ In sep2 (fst p) /\ match snd p with Some v => ~ In sep1 v | None => True end.
(** The elements that are complete, each with the separator behind it. *)
Definition complete_pairs (sep1 sep2 : N) (l : list (str * option str)) : str := before sep1 (map (pair_text sep2) l).

(** The word begins with a quote. *)
Definition begins_quoted (cur : str) : bool := match cur with c :: _ => N.eqb c DQ || N.eqb c SQ | [] => false end.
(** How it may be typed: in quotes, from its beginning, without a bare word break; or without a quote
    at its beginning, so that the separators are bare, if they are word breaks, and other word breaks
    are not bare. *)
Definition written (breaks : str) (seps : list N) (cur : str) (us : list (N * how)) : Prop :=
  if begins_quoted cur then forall u, In u us -> is_break breaks u = false
  else forall u, In u us -> is_break breaks u = memc (fst u) breaks && memc (fst u) seps.

(** ** Keys that a command prints (docs/documentation.md, "key_value_list_exec"): a key, its description,
    and the keys that are not to be offered with it.  A star in front of the key: it may be given again;
    behind it, [=] or [=?]: it takes a value, or may take one. *)
Record printed := Printed { p_key : str; p_again : bool; p_takes : str; p_description : str; p_excludes : list str }.
Definition print_key (p : printed) : str :=
  (if p_again p then [STAR] else []) ++ p_key p ++ p_takes p ++ [TAB] ++ p_description p ++ [TAB] ++ join [SP] (p_excludes p) ++ [LF].
Definition print_keys (l : list printed) : str := flat_map print_key l.
Definition word (x : str) : Prop := x <> [] /\ ~ In SP x /\ ~ In TAB x /\ ~ In LF x.
Definition good_key (p : printed) : Prop :=
  word (p_key p) /\ hd 0%N (p_key p) <> STAR /\ ~ In EQ (p_key p) /\ In (p_takes p) [[]; s "="; s "=?"] /\
  p_description p <> [] /\ ~ In TAB (p_description p) /\ ~ In LF (p_description p) /\ Forall word (p_excludes p).
(** The keys that are left. *)
Definition left (l : list printed) (typed : list str) (key : str) : Prop :=
  In key (map p_key l) /\
  forall p, In p l -> In (p_key p) typed -> ~ In key (p_excludes p) /\ (p_again p = false -> p_key p <> key).
