(** * Specification vocabulary for defines and deprecated entries. *)
From Verif Require Import Base Dict Value StrUtils Cli DictSource.

(** The name [x] is defined as [v] by the document [D]. *)
Definition defined (D : list (value * value)) (x : str) (v : value) : Prop :=
  x <> s "prog" /\ vget x D = Some v.

(** [w] is [v] with every text that is a defined name replaced by what it is defined as; keys are
    left alone, and the replacements are not searched again. *)
Inductive replaced (D : list (value * value)) : value -> value -> Prop :=
| rep_name x v : defined D x v -> replaced D (VStr x) v
| rep_text x : (forall v, ~ defined D x v) -> replaced D (VStr x) (VStr x)
| rep_list l l' : Forall2 (replaced D) l l' -> replaced D (VList l) (VList l')
| rep_dict d d' : Forall2 (fun kv kv' => fst kv = fst kv' /\ replaced D (snd kv) (snd kv')) d d' ->
    replaced D (VDict d) (VDict d')
| rep_none : replaced D VNone VNone
| rep_bool b : replaced D (VBool b) (VBool b)
| rep_int z : replaced D (VInt z) (VInt z)
| rep_float x : replaced D (VFloat x) (VFloat x).

(** A document of defines *)
Definition defines_document (v : value) : Prop :=
  exists D, v = VDict D /\ vget (s "prog") D = Some (VStr (s "%defines%")).

(** An option written with the deprecated entry [group], and the same option written with
    [groups]. *)
Definition modern (o o' : value) : Prop :=
  exists d1 g d2, o = VDict (d1 ++ (VStr (s "group"), g) :: d2) /\
    o' = VDict (d1 ++ d2 ++ [(VStr (s "groups"), VList [g])]) /\
    ~ In (VStr (s "group")) (map fst (d1 ++ d2)) /\ ~ In (VStr (s "groups")) (map fst (d1 ++ d2)).
(** An option with both: [groups] counts. *)
Definition modern_both (o o' : value) : Prop :=
  exists d1 g d2, o = VDict (d1 ++ (VStr (s "group"), g) :: d2) /\ o' = VDict (d1 ++ d2) /\
    ~ In (VStr (s "group")) (map fst (d1 ++ d2)) /\ In (VStr (s "groups")) (map fst (d1 ++ d2)).

(** The same list of documents except for one option of one document. *)
Definition one_option_differs (docs docs' : list value) (o o' : value) : Prop :=
  exists before d1 l1 l2 d2 after,
    ~ In (VStr (s "options")) (map fst d1) /\
    docs = before ++ VDict (d1 ++ (VStr (s "options"), VList (l1 ++ o :: l2)) :: d2) :: after /\
    docs' = before ++ VDict (d1 ++ (VStr (s "options"), VList (l1 ++ o' :: l2)) :: d2) :: after.
