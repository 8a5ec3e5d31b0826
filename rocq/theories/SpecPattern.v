(** * Specification: the patterns that users write.

    The texts of Bash patterns, built up from their parts, with the restrictions under which
    they can be translated.  What the texts mean is said by [SpecGlob], not here. *)
From Verif Require Import Base SpecShell SpecGlob.
Open Scope list_scope.

(** Text that stands for itself: an unquoted character, or text in single or double quotes. *)
Inductive lit :=
| LPlain (c : N)
| LSingle (x : str)
| LDouble (x : str).
Inductive piece :=
| Lit (l : lit)
| Any                                              (* ? *)
| Some_text                                        (* * *)
| Bracket (negated : bool) (body : list lit)       (* [..], [!..] *)
| Group (k : kind) (alternatives : list (list piece)).  (* @(..|..) *)

Definition lit_text (l : lit) : str :=
  match l with
  | LPlain c => [c]
  | LSingle x => s "'" ++ x ++ s "'"
  | LDouble x => [DQ] ++ x ++ [DQ]
  end.
Definition lit_chars (l : lit) : str :=
  match l with LPlain c => [c] | LSingle x => x | LDouble x => x end.
Definition kind_char (k : kind) : N :=
  match k with ExactlyOne => AT | AtMostOne => QM | AnyNumber => STAR | AtLeastOne => PLUS | NoneOf => BANG end.

Fixpoint text (p : piece) : str :=
  match p with
  | Lit l => lit_text l
  | Any => s "?"
  | Some_text => s "*"
  | Bracket negated body =>
      s "[" ++ (if negated then s "!" else []) ++ flat_map lit_text body ++ s "]"
  | Group k alternatives =>
      [kind_char k] ++ s "(" ++ join (s "|") (map (flat_map text) alternatives) ++ s ")"
  end.
Definition pattern_text (ps : list piece) : str := flat_map text ps.

(** Characters without a special meaning need no quotes; quoted text is not empty and needs no
    backslash; [^], [$] and backslashes are left out. *)
Definition lit_ok (l : lit) : bool :=
  match l with
  | LPlain c => plain c
  | LSingle x => match x with [] => false | _ => true end
                 && forallb (fun c => negb (memc c [SQ; BS; CARET; DOLLAR])) x
  | LDouble x => match x with [] => false | _ => true end
                 && forallb (fun c => negb (memc c [DQ; BS; CARET; DOLLAR; BTICK])) x
  end.
(** In brackets: quoted text has no [-] and ranges are in order. *)
Definition quoted_dash (l : lit) : bool :=
  match l with LPlain _ => false | LSingle x => memc DASH x | LDouble x => memc DASH x end.
Fixpoint ranges_ordered (x : str) : bool :=
  match x with
  | a :: ((d :: b :: _) as x') => (negb (N.eqb d DASH) || (a <=? b)%N) && ranges_ordered x'
  | _ => true
  end.
Section All.
Context (kinds : kind -> bool).
Fixpoint piece_ok (p : piece) : bool :=
  match p with
  | Lit l => lit_ok l
  | Any => true
  | Some_text => true
  | Bracket _ body =>
      match body with [] => false | _ => true end
      && forallb lit_ok body && negb (existsb quoted_dash body) && ranges_ordered (flat_map lit_chars body)
  | Group k alternatives =>
      kinds k && match alternatives with [] => false | _ => true end && forallb (forallb piece_ok) alternatives
  end.
End All.
(** Regular expressions have no counterpart of [!(..)]; Zsh's patterns only of [@(..)]. *)
Definition reg_kinds (k : kind) : bool := match k with NoneOf => false | _ => true end.
Definition zsh_kinds (k : kind) : bool := match k with ExactlyOne => true | _ => false end.
Definition pattern_ok (kinds : kind -> bool) (ps : list piece) : bool :=
  match ps with [] => false | _ => true end && forallb (piece_ok kinds) ps.

(** No character of the pattern needs quotes, whether it is quoted or not. *)
Fixpoint unquoted_ok (p : piece) : bool :=
  match p with
  | Lit l => forallb plain (lit_chars l)
  | Bracket _ body => forallb plain (flat_map lit_chars body)
  | Group _ alts => forallb (forallb unquoted_ok) alts
  | _ => true
  end.

(** The part of a path in front of a file's name. *)
Definition directory (u : str) : Prop := u = [] \/ exists u', u = u' ++ s "/".
