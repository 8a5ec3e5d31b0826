(** * Specification: how Bash reads a word that is being typed.

    Written from bash(1), "Quoting", and the manual of readline (word breaks); independent of the code
    under test. *)
From Verif Require Import Base.
Open Scope list_scope.

(** How a character of the word was written: as it is, behind a backslash, in single quotes, in double
    quotes; or it is a backslash in double quotes that stays, because what follows is not special there. *)
Inductive how := Bare | Escaped | InSingle | InDouble | Kept.
Inductive place := Outside | Singly | Doubly.
Definition quoted (p : place) : bool := match p with Outside => false | _ => true end.
Definition with_unit (u : N * how) (r : option (list (N * how) * bool)) : option (list (N * how) * bool) :=
  match r with Some (us, open) => Some (u :: us, open) | None => None end.
(** The characters of the word, and whether a quote is still open at its end.  [None]: it contains an
    expansion or a line continuation, or ends with a backslash. *)
Fixpoint units (p : place) (x : str) : option (list (N * how) * bool) :=
  match x with
  | [] => Some ([], quoted p)
  | c :: x' =>
      match p with
      | Outside =>
          if N.eqb c SQ then units Singly x'
          else if N.eqb c DQ then units Doubly x'
          else if N.eqb c BS then match x' with [] => None | d :: x'' => if N.eqb d LF then None else with_unit (d, Escaped) (units Outside x'') end
          else if memc c [DOLLAR; BTICK] then None
          else with_unit (c, Bare) (units Outside x')
      | Singly => if N.eqb c SQ then units Outside x' else with_unit (c, InSingle) (units Singly x')
      | Doubly =>
          if N.eqb c DQ then units Outside x'
          else if N.eqb c BS then
            match x' with
            | [] => None
            | d :: x'' =>
                if N.eqb d LF then None
                else if memc d [DOLLAR; BTICK; DQ; BS] then with_unit (d, InDouble) (units Doubly x'')
                else with_unit (BS, Kept) (with_unit (d, InDouble) (units Doubly x''))
            end
          else if memc c [DOLLAR; BTICK] then None
          else with_unit (c, InDouble) (units Doubly x')
      end
  end.
(** The text that is meant. *)
Definition text (us : list (N * how)) : str := map fst us.
(** No backslash stays in double quotes. *)
Definition none_kept (us : list (N * how)) : Prop := ~ In Kept (map snd us).

(** readline completes what is behind the last bare word break: [n] is the number of characters before
    that, if there is one. *)
Definition is_break (breaks : str) (u : N * how) : bool := match snd u with Bare => memc (fst u) breaks | _ => false end.
Definition breaks_at (breaks : str) (us : list (N * how)) (n : option nat) : Prop :=
  match n with
  | None => forall u, In u us -> is_break breaks u = false
  | Some n => exists before b behind, us = before ++ [b] ++ behind /\ is_break breaks b = true /\
      (forall u, In u behind -> is_break breaks u = false) /\ n = S (List.length before)
  end.

(** ** Command lines

    The words, as they are written, with quotes and backslashes; the last one is completed. *)
Definition one_raw_word (w : str) : Prop := w <> [] /\ exists us open, units Outside w = Some (us, open) /\ ~ In (SP, Bare) us.
Inductive line_of : str -> list str -> Prop :=
| line_end : line_of [] [[]]
| line_last w : one_raw_word w -> line_of w [w]
| line_word w x ws : one_raw_word w -> (exists us, units Outside w = Some (us, false)) -> line_of x ws -> line_of (w ++ [SP] ++ x) (w :: ws)
| line_blank x ws : line_of x ws -> line_of ([SP] ++ x) ws.

(** ** [printf %q] for texts without control characters: a backslash in front of special characters; an
    empty text is quoted. *)
Definition printf_q (special : N -> bool) (x : str) : str :=
  match x with [] => [SQ; SQ] | _ => flat_map (fun c => if special c then [BS; c] else [c]) x end.

Definition prefix (p x : str) : Prop := exists y, x = p ++ y.
