(** * Specification: [${text/pattern/replacement}] in Bash.

    Written from bash(1), "Pattern Matching" and "Parameter Expansion"; independent of the code under
    test.  [text], [pattern] and [replacement] are the values of unquoted variables.  Brackets are read
    if they list single characters.  What is outside this fragment (extended patterns, brackets with
    ranges or classes, a pattern that must match at the end) is answered with [None]. *)
From Verif Require Import Base.
Open Scope list_scope.

Inductive item := One (c : N) | AnyOne | Many | OneOf (l : str).

(** [set]: the characters of an open bracket *)
Fixpoint read_pattern (x : str) (set : option str) : option (list item) :=
  match x, set with
  | [], None => Some []
  | [], Some _ => None
  | c :: r, Some l =>
      if N.eqb c RBRK then match l with [] => None | _ => option_map (cons (OneOf l)) (read_pattern r None) end
      else if memc c (s "[]!^-:\/") then None
      else read_pattern r (Some (l ++ [c]))
  | c :: r, None =>
      if N.eqb c STAR then option_map (cons Many) (read_pattern r None)
      else if N.eqb c QM then option_map (cons AnyOne) (read_pattern r None)
      else if N.eqb c LBRK then read_pattern r (Some [])
      else if N.eqb c BS then match r with [] => None | d :: r' => option_map (cons (One d)) (read_pattern r' None) end
      else if memc c (s "()") then None
      else option_map (cons (One c)) (read_pattern r None)
  end.

Fixpoint tails (w : str) : list str := w :: match w with [] => [] | _ :: w' => tails w' end.
(** What may be left of [w] behind a match at its beginning *)
Fixpoint rests (p : list item) (w : str) : list str :=
  match p with
  | [] => [w]
  | One c :: p' => match w with d :: w' => if N.eqb c d then rests p' w' else [] | [] => [] end
  | AnyOne :: p' => match w with _ :: w' => rests p' w' | [] => [] end
  | OneOf l :: p' => match w with d :: w' => if memc d l then rests p' w' else [] | [] => [] end
  | Many :: p' => flat_map (rests p') (tails w)
  end.
(** The longest match leaves the shortest rest. *)
Fixpoint shortest (l : list str) : option str :=
  match l with
  | [] => None
  | x :: l' => match shortest l' with Some y => if Nat.ltb (List.length y) (List.length x) then Some y else Some x | None => Some x end
  end.
(** [&] stands for the match (since Bash 5.2), a backslash protects *)
Fixpoint fill (m rep : str) : str :=
  match rep with
  | [] => []
  | c :: r => if N.eqb c AMP then m ++ fill m r
              else if N.eqb c BS then match r with d :: r' => if N.eqb d AMP || N.eqb d BS then d :: fill m r' else c :: fill m r | [] => [c] end
              else c :: fill m r
  end.
Definition replaced_here (p : list item) (rep w : str) : option str :=
  match shortest (rests p w) with
  | Some r => Some (fill (firstn (List.length w - List.length r) w) rep ++ r)
  | None => None
  end.
Fixpoint replaced_first (p : list item) (rep w : str) : str :=
  match replaced_here p rep w with
  | Some x => x
  | None => match w with [] => [] | c :: w' => c :: replaced_first p rep w' end
  end.
Definition substitute (text pattern rep : str) : option str :=
  match pattern with
  | [] => Some text
  | c :: r =>
      if N.eqb c PERCENT then None
      else if N.eqb c HASH then
        match read_pattern r None with
        | Some p => Some match replaced_here p rep text with Some x => x | None => text end
        | None => None
        end
      else match read_pattern pattern None with
           | Some p => Some (replaced_first p rep text)
           | None => None
           end
  end.

(** Names without characters that have a meaning in patterns *)
Definition no_pattern (x : str) : Prop := forall c, In c x -> memc c (s "*?[\()") = false.
