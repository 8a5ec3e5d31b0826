(** * Specification for C13/C14: conditional templates.
    Does not mention the preprocessor. *)
From Verif Require Import Base.

(** A line is a directive [d] if it is [d] plus something, behind white space. *)
Definition directive (d l : str) : Prop :=
  exists ws r, forallb is_space ws = true /\ l = ws ++ d ++ r.

(** [#ifdef NAME], optionally followed by white space and more. *)
Definition ifdef_line (l name : str) : Prop :=
  exists ws sp tail, forallb is_space ws = true /\ forallb is_space sp = true /\ sp <> [] /\
    name <> [] /\ forallb (fun c => negb (is_space c)) name = true /\
    (tail = [] \/ exists c t, tail = c :: t /\ is_space c = true) /\
    l = ws ++ s "#ifdef" ++ sp ++ name ++ tail.

Definition text_line (l : str) : Prop :=
  ~ directive (s "#ifdef") l /\ ~ directive (s "#else") l /\ ~ directive (s "#endif") l.

(** Properly nested documents. *)
Inductive doc :=
| DNil
| DText (l : str) (d : doc)
| DIf (ifl name : str) (yes : doc) (endl : str) (d : doc)
| DIfElse (ifl name : str) (yes : doc) (elsel : str) (no : doc) (endl : str) (d : doc).

Fixpoint wf (d : doc) : Prop :=
  match d with
  | DNil => True
  | DText l d => text_line l /\ wf d
  | DIf i n y e d => ifdef_line i n /\ wf y /\ directive (s "#endif") e /\ wf d
  | DIfElse i n y el no e d =>
      ifdef_line i n /\ wf y /\ directive (s "#else") el /\ wf no /\ directive (s "#endif") e /\ wf d
  end.

(** The lines of a document. *)
Fixpoint render (d : doc) : list str :=
  match d with
  | DNil => []
  | DText l d => l :: render d
  | DIf i _ y e d => i :: render y ++ e :: render d
  | DIfElse i _ y el no e d => i :: render y ++ el :: render no ++ e :: render d
  end.

(** The lines that remain. *)
Fixpoint select (defines : list str) (d : doc) : list str :=
  match d with
  | DNil => []
  | DText l d => l :: select defines d
  | DIf _ n y _ d =>
      (if in_dec str_eq_dec n defines then select defines y else []) ++ select defines d
  | DIfElse _ n y _ no _ d =>
      (if in_dec str_eq_dec n defines then select defines y else select defines no)
      ++ select defines d
  end.

(** For C14: counting directives. *)
Definition is_dir (d l : str) : bool := starts_with d (lstrip_p is_space l).
Definition n_dir (d : str) (ls : list str) : nat := length (filter (is_dir d) ls).

(** No directive of [ls] closes or alternates a block that is not open. *)
Definition prefix_ok (ls : list str) : Prop :=
  (forall p l q, ls = p ++ l :: q ->
     is_dir (s "#endif") l = true \/ is_dir (s "#else") l = true ->
     n_dir (s "#endif") p < n_dir (s "#ifdef") p) /\
  (forall l, In l ls -> is_dir (s "#ifdef") l = true ->
     2 <= length (split_ws (lstrip_p is_space l))).
Definition balanced (ls : list str) : Prop :=
  prefix_ok ls /\ n_dir (s "#endif") ls = n_dir (s "#ifdef") ls.
