(** * Specification: regular expressions.

    Independent of the code under test: written from the PCRE2 manual (fish's [string match -r]).
    The part without look-around, back references, possessive and lazy repetition, counted
    repetition, options and named classes: the answer for such a text is [None].  Without these
    a text matches exactly if it can be cut into pieces that match the parts. *)
From Verif Require Import Base SpecGlob.
Open Scope list_scope.

Inductive quantifier := QStar | QPlus | QOpt.
Inductive re :=
| RChar (c : N)                                    (* this character *)
| RDot                                             (* any character but a line feed *)
| RSet (negated : bool) (ranges : list (N * N))    (* [..] *)
| RBegin                                           (* ^ *)
| REnd                                             (* $ *)
| RGroup (alternatives : list (list re))           (* (..|..) *)
| RRep (q : quantifier) (r : re).

(** ** What an expression matches: [m before w after] says that [w] matches where it stands
    between [before] and [after]. *)
Inductive rstar (m : str -> str -> str -> Prop) : str -> str -> str -> Prop :=
| rstar_nil before after : rstar m before [] after
| rstar_app before u v after : m before u (v ++ after) -> rstar m (before ++ u) v after ->
    rstar m before (u ++ v) after.

Section Sequence.
Context (m : re -> str -> str -> str -> Prop).
Fixpoint rseq_ (rs : list re) (before w after : str) : Prop :=
  match rs with
  | [] => w = []
  | r :: rs' => exists u v, w = u ++ v /\ m r before u (v ++ after) /\ rseq_ rs' (before ++ u) v after
  end.
Fixpoint rany_ (alts : list (list re)) (before w after : str) : Prop :=
  match alts with
  | [] => False
  | a :: alts' => rseq_ a before w after \/ rany_ alts' before w after
  end.
End Sequence.
Fixpoint rmatch (r : re) (before w after : str) : Prop :=
  match r with
  | RChar c => w = [c]
  | RDot => exists c, w = [c] /\ c <> LF
  | RSet negated ranges => exists c, w = [c] /\ in_ranges c ranges = negb negated
  | RBegin => w = [] /\ before = []
  | REnd => w = [] /\ (after = [] \/ after = [LF])
  | RGroup alts => rany_ rmatch alts before w after
  | RRep QStar r => rstar (rmatch r) before w after
  | RRep QPlus r => exists u v, w = u ++ v /\ rmatch r before u (v ++ after) /\ rstar (rmatch r) (before ++ u) v after
  | RRep QOpt r => w = [] \/ rmatch r before w after
  end.
Definition rany : list (list re) -> str -> str -> str -> Prop := rany_ rmatch.

(** ** How the text of an expression is read *)
Inductive rmode :=
| RPlain
| REsc                       (* behind a backslash *)
| RIn (b : bracket)          (* in [..] *)
| RInEsc (b : bracket).      (* behind a backslash in [..] *)

Definition opt {A} (o : option A) : list A := match o with Some a => [a] | None => [] end.
Definition set_of (b : bracket) : re :=
  match bracket_close b with OneOf n r => RSet n r | _ => RDot end.
(** ranges must be in order *)
Definition range_ok (b : bracket) (c : N) : bool :=
  match b_last b, b_dash b with Some a, true => (a <=? c)%N | _, _ => true end.
Definition quantifier_of (c : N) : option quantifier :=
  if N.eqb c STAR then Some QStar else if N.eqb c PLUS then Some QPlus
  else if N.eqb c QM then Some QOpt else None.

(** [st]: what had been read when the open parentheses were reached; [alts]: finished
    alternatives; [cur] and [last]: the current one, its last part can still be repeated. *)
Fixpoint rread (m : rmode) (st : list (list (list re) * list re)) (alts : list (list re))
    (cur : list re) (last : option re) (x : str) {struct x} : option (list (list re)) :=
  match x with
  | [] => match m, st with RPlain, [] => Some (alts ++ [cur ++ opt last]) | _, _ => None end
  | c :: x' =>
      match m with
      | REsc =>
          if N.eqb c 100 then rread RPlain st alts (cur ++ opt last) (Some (RSet false [(48, 57)%N])) x'
          else if is_word c && negb (N.eqb c UND) then None
          else rread RPlain st alts (cur ++ opt last) (Some (RChar c)) x'
      | RInEsc b =>
          if is_word c && negb (N.eqb c UND) then None
          else if range_ok b c then rread (RIn (bracket_add b c)) st alts cur last x' else None
      | RIn b =>
          if b_start b && negb (b_negated b) && N.eqb c CARET
          then rread (RIn (MkBracket true [] None false true)) st alts cur last x'
          else if N.eqb c RBRK && negb (b_start b)
          then rread RPlain st alts (cur ++ opt last) (Some (set_of b)) x'
          else if N.eqb c DASH && negb (b_dash b) && (match b_last b with Some _ => true | None => false end)
          then rread (RIn (MkBracket (b_negated b) (b_items b) (b_last b) true false)) st alts cur last x'
          else if N.eqb c LBRK && (match x' with d :: _ => memc d [COLON; EQ; DOT] | [] => false end)
          then None
          else if N.eqb c BS then rread (RInEsc b) st alts cur last x'
          else if range_ok b c then rread (RIn (bracket_add b c)) st alts cur last x' else None
      | RPlain =>
          match quantifier_of c with
          | Some q =>
              match last with
              | Some r => rread RPlain st alts (cur ++ [RRep q r]) None x'
              | None => None
              end
          | None =>
              if N.eqb c BS then rread REsc st alts cur last x'
              else if N.eqb c DOT then rread RPlain st alts (cur ++ opt last) (Some RDot) x'
              else if N.eqb c CARET then rread RPlain st alts (cur ++ opt last ++ [RBegin]) None x'
              else if N.eqb c DOLLAR then rread RPlain st alts (cur ++ opt last ++ [REnd]) None x'
              else if N.eqb c LBRK then rread (RIn (MkBracket false [] None false true)) st alts cur last x'
              else if N.eqb c LPAR then
                rread RPlain ((alts, cur ++ opt last) :: st) [] [] None x'
              else if N.eqb c PIPE then rread RPlain st (alts ++ [cur ++ opt last]) [] None x'
              else if N.eqb c RPAR then
                match st with
                | [] => None
                | (alts0, cur0) :: st' =>
                    rread RPlain st' alts0 cur0 (Some (RGroup (alts ++ [cur ++ opt last]))) x'
                end
              else if N.eqb c LBRC then None
              else rread RPlain st alts (cur ++ opt last) (Some (RChar c)) x'
          end
      end
  end.
(** A [?] or [*] behind an opening parenthesis has nothing to repeat: the special groups
    [(?..)] and [( *..)] are not read. *)
Definition read_regex (x : str) : option (list (list re)) := rread RPlain [] [] [] None x.

(** The whole of [w] matches. *)
Definition regex_full (x w : str) : Prop :=
  exists alts, read_regex x = Some alts /\ rany alts [] w [].
(** [string match -r x w]: some part of [w] matches. *)
Definition regex_found (x w : str) : Prop :=
  exists alts before u after, read_regex x = Some alts /\ w = before ++ u ++ after /\ rany alts before u after.
