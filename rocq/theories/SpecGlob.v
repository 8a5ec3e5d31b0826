(** * Specification: Bash's patterns.

    Independent of the code under test: written from the Bash manual, "Pattern Matching" and
    "Conditional Constructs", with the option [extglob], which bash-completion needs, switched on.

    Simplifications: ranges in brackets follow the order of code points (option
    [globasciiranges], the default); named classes such as [[:alpha:]], expansions, blanks and
    redirections outside quotes are not read: the answer for such a text is [None]. *)
From Verif Require Import Base SpecShell.

(** [@(..)], [?(..)], [*(..)], [+(..)], [!(..)] *)
Inductive kind := ExactlyOne | AtMostOne | AnyNumber | AtLeastOne | NoneOf.

Inductive glob :=
| Char (c : N)                                    (* this character *)
| AnyChar                                         (* ? *)
| AnyText                                         (* * *)
| OneOf (negated : bool) (ranges : list (N * N))  (* [..] *)
| Ext (k : kind) (alternatives : list (list glob)).

(** ** What a pattern matches *)

Inductive star (P : str -> Prop) : str -> Prop :=
| star_nil : star P []
| star_app u v : P u -> star P v -> star P (u ++ v).

Definition ext_matches (k : kind) (P : str -> Prop) (w : str) : Prop :=
  match k with
  | ExactlyOne => P w
  | AtMostOne => w = [] \/ P w
  | AnyNumber => star P w
  | AtLeastOne => exists u v, w = u ++ v /\ P u /\ star P v
  | NoneOf => ~ P w
  end.

Definition in_ranges (c : N) (ranges : list (N * N)) : bool :=
  existsb (fun '(a, b) => (a <=? c)%N && (c <=? b)%N) ranges.

Section Sequence.
Context (m : glob -> str -> Prop).
(** one after the other *)
Fixpoint seq_matches_ (gs : list glob) (w : str) : Prop :=
  match gs with
  | [] => w = []
  | g :: gs' => exists u v, w = u ++ v /\ m g u /\ seq_matches_ gs' v
  end.
(** one of them *)
Fixpoint any_matches_ (alts : list (list glob)) (w : str) : Prop :=
  match alts with
  | [] => False
  | a :: alts' => seq_matches_ a w \/ any_matches_ alts' w
  end.
End Sequence.

Fixpoint matches (g : glob) (w : str) : Prop :=
  match g with
  | Char c => w = [c]
  | AnyChar => exists c, w = [c]
  | AnyText => True
  | OneOf negated ranges => exists c, w = [c] /\ in_ranges c ranges = negb negated
  | Ext k alternatives => ext_matches k (any_matches_ matches alternatives) w
  end.
Definition seq_matches : list glob -> str -> Prop := seq_matches_ matches.
Definition any_matches : list (list glob) -> str -> Prop := any_matches_ matches.

(** ** How the text of a pattern is read *)

(** A bracket expression being read: negated, finished items, the last character (it may start
    a range), whether a [-] followed it, and whether nothing has been read yet. *)
Record bracket := MkBracket {
  b_negated : bool; b_items : list (N * N); b_last : option N; b_dash : bool; b_start : bool }.
Definition single (o : option N) : list (N * N) :=
  match o with Some c => [(c, c)] | None => [] end.
Definition bracket_add (b : bracket) (c : N) : bracket :=
  match b_last b, b_dash b with
  | Some a, true => MkBracket (b_negated b) (b_items b ++ [(a, c)]) None false false
  | _, _ => MkBracket (b_negated b) (b_items b ++ single (b_last b)) (Some c) false false
  end.
Definition bracket_close (b : bracket) : glob :=
  OneOf (b_negated b) (b_items b ++ single (b_last b) ++ (if b_dash b then [(DASH, DASH)] else [])).

(** [cur] is the alternative being read: [None] if none of its text has been seen. *)
Definition glob_push (cur : option (list glob)) (g : glob) : option (list glob) :=
  Some (match cur with None => [g] | Some gs => gs ++ [g] end).
Definition glob_start (cur : option (list glob)) : option (list glob) :=
  Some (match cur with None => [] | Some gs => gs end).
Definition glob_of (cur : option (list glob)) : list glob :=
  match cur with None => [] | Some gs => gs end.

Definition ext_kind (c : N) : option kind :=
  if N.eqb c AT then Some ExactlyOne
  else if N.eqb c QM then Some AtMostOne
  else if N.eqb c STAR then Some AnyNumber
  else if N.eqb c PLUS then Some AtLeastOne
  else if N.eqb c BANG then Some NoneOf
  else None.

(** one of these characters, with an opening parenthesis next to it *)
Definition ext_open (c : N) (rest : str) : option kind :=
  match rest with
  | d :: _ => if N.eqb d LPAR then ext_kind c else None
  | [] => None
  end.

(** Quoting: outside quotes, in single quotes, in double quotes, behind a backslash in double
    quotes, behind a backslash outside quotes. *)
Inductive gmode := GPlain | GSingle | GDouble | GDoubleEsc | GEsc.

(** A character that stands for itself. *)
Definition literal (b : option bracket) (cur : option (list glob)) (c : N)
    : option bracket * option (list glob) :=
  match b with
  | Some b => (Some (bracket_add b c), cur)
  | None => (None, glob_push cur (Char c))
  end.

(** [top]: an unquoted [|] outside parentheses separates patterns (in [case]).
    [st]: for every open parenthesis its kind and what had been read before it;
    [alts], [cur]: finished alternatives and the current one; [b]: the open bracket. *)
Fixpoint read (top : bool) (m : gmode)
    (st : list (kind * list (list glob) * option (list glob)))
    (alts : list (list glob)) (cur : option (list glob)) (b : option bracket)
    (x : str) {struct x} : option (list (list glob)) :=
  match x with
  | [] => match m, st, b, cur with
          | GPlain, [], None, Some gs => Some (alts ++ [gs])
          | _, _, _, _ => None
          end
  | c :: x' =>
      match m with
      | GEsc => let '(b, cur) := literal b cur c in read top GPlain st alts cur b x'
      | GSingle =>
          if N.eqb c SQ then read top GPlain st alts cur b x'
          else let '(b, cur) := literal b cur c in read top GSingle st alts cur b x'
      | GDouble =>
          if N.eqb c DQ then read top GPlain st alts cur b x'
          else if N.eqb c BS then read top GDoubleEsc st alts cur b x'
          else if N.eqb c DOLLAR || N.eqb c BTICK then None
          else let '(b, cur) := literal b cur c in read top GDouble st alts cur b x'
      | GDoubleEsc =>
          if N.eqb c LF then read top GDouble st alts cur b x'
          else if memc c [DOLLAR; BTICK; DQ; BS]
          then let '(b, cur) := literal b cur c in read top GDouble st alts cur b x'
          else let '(b, cur) := literal b cur BS in
               let '(b, cur) := literal b cur c in read top GDouble st alts cur b x'
      | GPlain =>
          if N.eqb c SQ then read top GSingle st alts (match b with Some _ => cur | None => glob_start cur end) b x'
          else if N.eqb c DQ then read top GDouble st alts (match b with Some _ => cur | None => glob_start cur end) b x'
          else if N.eqb c BS then read top GEsc st alts cur b x'
          else match b with
          | Some br =>
              if b_start br && negb (b_negated br) && (N.eqb c BANG || N.eqb c CARET)
              then read top GPlain st alts cur (Some (MkBracket true [] None false true)) x'
              else if N.eqb c RBRK && negb (b_start br)
              then read top GPlain st alts (glob_push cur (bracket_close br)) None x'
              else if N.eqb c DASH && negb (b_dash br) && (match b_last br with Some _ => true | None => false end)
              then read top GPlain st alts cur
                     (Some (MkBracket (b_negated br) (b_items br) (b_last br) true false)) x'
              else if memc c [DOLLAR; BTICK; SP; TAB; LF] then None
              else if N.eqb c LBRK && (match x' with d :: _ => memc d [COLON; EQ; DOT] | [] => false end)
              then None
              else read top GPlain st alts cur (Some (bracket_add br c)) x'
          | None =>
              match ext_open c x' with
              | Some k =>
                  match x' with
                  | _ :: x'' => read top GPlain ((k, alts, cur) :: st) [] None None x''
                  | [] => None
                  end
              | None =>
                  if N.eqb c QM then read top GPlain st alts (glob_push cur AnyChar) None x'
                  else if N.eqb c STAR then read top GPlain st alts (glob_push cur AnyText) None x'
                  else if N.eqb c LBRK
                  then read top GPlain st alts (glob_start cur) (Some (MkBracket false [] None false true)) x'
                  else if N.eqb c PIPE then
                    match st, cur with
                    | [], None => None
                    | [], Some gs => if top then read top GPlain [] (alts ++ [gs]) None None x' else None
                    | _, _ => read top GPlain st (alts ++ [glob_of cur]) None None x'
                    end
                  else if N.eqb c RPAR then
                    match st with
                    | [] => None
                    | (k, alts0, cur0) :: st' =>
                        read top GPlain st' alts0 (glob_push cur0 (Ext k (alts ++ [glob_of cur]))) None x'
                    end
                  else if memc c [SP; TAB; LF; DOLLAR; BTICK; AMP; SEMI; LT; GT; LPAR] then None
                  else if memc c [HASH; TILDE] && (match cur with None => true | Some _ => false end)
                       && (match st with [] => true | _ => false end)
                  then None                                  (* comment, tilde expansion *)
                  else read top GPlain st alts (glob_push cur (Char c)) None x'
              end
          end
      end
  end.

(** The patterns of a [case] clause (the text before the closing parenthesis), and a single
    pattern. *)
Definition read_case (x : str) : option (list (list glob)) := read true GPlain [] [] None None x.
Definition read_glob (x : str) : option (list glob) :=
  match read false GPlain [] [] None None x with Some [g] => Some g | _ => None end.

(** [case w in x) ..]: the clause is syntactically valid and is chosen for the word [w]. *)
Definition case_matches (x w : str) : Prop :=
  exists alts, read_case x = Some alts /\ any_matches alts w.
(** [w] matches the pattern [x] *)
Definition glob_matches (x w : str) : Prop :=
  exists gs, read_glob x = Some gs /\ seq_matches gs w.

(** Characters that need no quoting in patterns (POSIX and Bash metacharacters excluded). *)
Definition plain (c : N) : bool := negb (posix_special c).

(** ** Strings that go on as numbers in a row *)

(** [u] is what follows [p] in one of the strings. *)
Definition follows (strings : list str) (p u : str) : Prop := In (p ++ u) strings.
(** At least two strings start with [p]; no two go on with the same character; all go on as
    integers ([number] reads them), and there is no gap between these integers. *)
Definition consecutive (number : str -> option Z) (strings : list str) (p : str) : Prop :=
  (exists u v, follows strings p u /\ follows strings p v /\ u <> v) /\
  (forall u v, follows strings p u -> follows strings p v -> u <> v -> hd_error u <> hd_error v) /\
  (forall u, follows strings p u -> number u <> None) /\
  exists lo hi, forall n, (lo <= n <= hi)%Z <-> exists u, follows strings p u /\ number u = Some n.
