(** * Specification: the patterns of Zsh's completion functions ([_files -F]).

    Independent of the code under test: written from the Zsh manual, "Glob Operators", with the
    option [EXTENDED_GLOB], which completion functions set.  Read are plain characters, [?], [*],
    brackets and groups; the answer for a text with quotes, blanks, ranges of numbers, flags and
    the operators [#], [~] and [^] is [None]. *)
From Verif Require Import Base SpecGlob.
Open Scope list_scope.

Fixpoint zread (st : list (list (list glob) * list glob)) (alts : list (list glob)) (cur : list glob)
    (b : option bracket) (x : str) {struct x} : option (list glob) :=
  match x with
  | [] => match st, alts, b with [], [], None => Some cur | _, _, _ => None end
  | c :: x' =>
      if memc c [SQ; DQ; BS; DOLLAR; BTICK; SP; TAB; LF] then None
      else match b with
      | Some br =>
          if b_start br && negb (b_negated br) && (N.eqb c BANG || N.eqb c CARET)
          then zread st alts cur (Some (MkBracket true [] None false true)) x'
          else if N.eqb c RBRK && negb (b_start br)
          then zread st alts (cur ++ [bracket_close br]) None x'
          else if N.eqb c DASH && negb (b_dash br) && (match b_last br with Some _ => true | None => false end)
          then zread st alts cur (Some (MkBracket (b_negated br) (b_items br) (b_last br) true false)) x'
          else if N.eqb c LBRK then None
          else zread st alts cur (Some (bracket_add br c)) x'
      | None =>
          if N.eqb c QM then zread st alts (cur ++ [AnyChar]) None x'
          else if N.eqb c STAR then zread st alts (cur ++ [AnyText]) None x'
          else if N.eqb c LBRK then zread st alts cur (Some (MkBracket false [] None false true)) x'
          else if N.eqb c LPAR then zread ((alts, cur) :: st) [] [] None x'
          else if N.eqb c PIPE then
            match st with [] => None | _ => zread st (alts ++ [cur]) [] None x' end
          else if N.eqb c RPAR then
            match st with
            | [] => None
            | (alts0, cur0) :: st' => zread st' alts0 (cur0 ++ [Ext ExactlyOne (alts ++ [cur])]) None x'
            end
          else if memc c [HASH; TILDE; CARET; LT; GT; AMP; SEMI; RBRK] then None
          else zread st alts (cur ++ [Char c]) None x'
      end
  end.
(** [w] matches the pattern [x] *)
Definition zsh_matches (x w : str) : Prop :=
  exists gs, zread [] [] [] None x = Some gs /\ seq_matches gs w.
