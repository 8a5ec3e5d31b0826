(** * Specification: the patterns and regular expressions of zsh's [[[ .. ]]].

    Written from the manual of zsh (zshexpn, "Glob Operators"; zshmisc, "Conditional Expressions"), with
    the default options. Only the operators that occur in generated wrappers are read; a text with any
    other operator has no meaning here. *)
From Verif Require Import Base PyStr.
Open Scope list_scope.

(** ** [[[ $w == PATTERN ]]] *)

(** a character, a star, a group of alternatives *)
Inductive zpat := PChar (c : N) | PStar | PGroup (alts : list (list zpat)).

(** Characters that stand for themselves. *)
Definition ordinary (c : N) : bool := is_word c || memc c (s "-=.+:@%/").

(** [cur]: what was read of the present alternative, reversed; [alts]: the alternatives before it,
    reversed; [st]: the same two things for each group that is open. *)
Fixpoint read_pat (t : str) (cur : list zpat) (alts : list (list zpat)) (st : list (list zpat * list (list zpat)))
  : option (list zpat) :=
  match t with
  | [] => match st with [] => Some (rev cur) | _ => None end
  | c :: t' =>
      if N.eqb c LPAR then read_pat t' [] [] ((cur, alts) :: st)
      else if N.eqb c PIPE then match st with [] => None | _ => read_pat t' [] (rev cur :: alts) st end
      else if N.eqb c RPAR then
        match st with
        | [] => None
        | (cur0, alts0) :: st' => read_pat t' (PGroup (rev (rev cur :: alts)) :: cur0) alts0 st'
        end
      else if N.eqb c STAR then read_pat t' (PStar :: cur) alts st
      else if ordinary c then read_pat t' (PChar c :: cur) alts st
      else None
  end.

(** What can be left of [w] when its beginning fits the pattern. *)
Fixpoint tails (w : str) : list str := w :: match w with [] => [] | _ :: w' => tails w' end.
Fixpoint ends1 (n : zpat) (w : str) {struct n} : list str :=
  match n with
  | PChar c => match w with d :: w' => if N.eqb c d then [w'] else [] | [] => [] end
  | PStar => tails w
  | PGroup alts =>
      flat_map (fun a => (fix seq (p : list zpat) (w : str) : list str :=
                            match p with [] => [w] | m :: p' => flat_map (seq p') (ends1 m w) end) a w) alts
  end.
Fixpoint ends (p : list zpat) (w : str) : list str :=
  match p with [] => [w] | m :: p' => flat_map (ends p') (ends1 m w) end.
Definition is_nil (x : str) : bool := match x with [] => true | _ => false end.
(** The word fits the pattern. *)
Definition globs (t w : str) : bool :=
  match read_pat t [] [] [] with Some p => existsb is_nil (ends p w) | None => false end.

(** ** [[[ $w =~ 'REGEX' ]]], for expressions [^..$] *)
Inductive atom := AChar (c : N) | AAny | ASet (l : str).
Inductive quantifier := Once | Repeated | AtLeastOnce.
(** Characters that stand for themselves in brackets and between single quotes. *)
Definition in_brackets (c : N) : bool := negb (memc c (s "[]^\'-")).

(** [set]: the characters read of an open bracket; [acc]: the items before, reversed *)
Fixpoint read_re (t : str) (set : option str) (acc : list (atom * quantifier)) : option (list (atom * quantifier)) :=
  match t with
  | [] => None
  | c :: t' =>
      match set with
      | Some l =>
          if N.eqb c 93 then match l with [] => None | _ => read_re t' None ((ASet l, Once) :: acc) end
          else if in_brackets c then read_re t' (Some (c :: l)) acc else None
      | None =>
          if N.eqb c 91 then read_re t' (Some []) acc
          else if N.eqb c STAR then match acc with (a, Once) :: acc' => read_re t' None ((a, Repeated) :: acc') | _ => None end
          else if N.eqb c PLUS then match acc with (a, Once) :: acc' => read_re t' None ((a, AtLeastOnce) :: acc') | _ => None end
          else if N.eqb c DOLLAR then match t' with [] => Some (rev acc) | _ => None end
          else if N.eqb c DOT then read_re t' None ((AAny, Once) :: acc)
          else if is_word c || N.eqb c DASH then read_re t' None ((AChar c, Once) :: acc)
          else None
      end
  end.
Definition accepts (a : atom) (c : N) : bool :=
  match a with AChar d => N.eqb d c | AAny => true | ASet l => memc c l end.
Fixpoint some_of (a : atom) (w : str) : list str :=
  w :: match w with c :: w' => if accepts a c then some_of a w' else [] | [] => [] end.
Definition one_of (a : atom) (w : str) : list str :=
  match w with c :: w' => if accepts a c then [w'] else [] | [] => [] end.
Definition item_ends (i : atom * quantifier) (w : str) : list str :=
  match snd i with
  | Once => one_of (fst i) w
  | Repeated => some_of (fst i) w
  | AtLeastOnce => flat_map (some_of (fst i)) (one_of (fst i) w)
  end.
Fixpoint re_ends (l : list (atom * quantifier)) (w : str) : list str :=
  match l with [] => [w] | i :: l' => flat_map (re_ends l') (item_ends i w) end.
Definition matches (t w : str) : bool :=
  match t with
  | c :: t' =>
      if N.eqb c CARET then
        match read_re t' None [] with Some l => existsb is_nil (re_ends l w) | None => false end
      else false
  | [] => false
  end.
