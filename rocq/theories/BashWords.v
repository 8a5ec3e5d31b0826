(** * Model of helper functions of the Bash scripts that read what was typed: bash_helpers.py 23-61
    ([dequote]), 63-72 ([dequote_words]), 74-122 ([parse_line]), 124-156 ([get_prefix_suffix_len]).

    The loops over the positions of a string are loops over its characters. *)
From Verif Require Import Base.
Open Scope list_scope.

(** ** [dequote]: 23-61 *)

(** The variables [result], [___break_pos] ([None]: -1) and [___in_quotes]. *)
Record dequoted := Dequoted { dq_result : str; dq_break : option nat; dq_quotes : bool }.
Definition add (st : dequoted) (c : N) : dequoted := Dequoted (dq_result st ++ [c]) (dq_break st) (dq_quotes st).
Definition in_quotes (st : dequoted) (b : bool) : dequoted := Dequoted (dq_result st) (dq_break st) b.
(** The three loops: outside of quotes (26-52), in single quotes (30-33), in double quotes (36-44). *)
Inductive loop := Outer | Single | Double.

Section Dequote.
(** The characters of [COMP_WORDBREAKS].  Simplification: each of them stands for itself in
    [[$COMP_WORDBREAKS]]. *)
Variable breaks : str.
Fixpoint dequote_loop (l : loop) (st : dequoted) (x : str) : dequoted :=
  match x with
  | [] => st
  | c :: x' =>
      match l with
      | Outer =>
          if N.eqb c SQ then dequote_loop Single (in_quotes st true) x'
          else if N.eqb c DQ then dequote_loop Double (in_quotes st true) x'
          else if N.eqb c BS then match x' with [] => st | d :: x'' => dequote_loop Outer (add st d) x'' end
          else if memc c breaks then
            let st' := add st c in
            dequote_loop Outer (Dequoted (dq_result st') (Some (List.length (dq_result st'))) (dq_quotes st')) x'
          else dequote_loop Outer (add st c) x'
      | Single =>
          if N.eqb c SQ then dequote_loop Outer (in_quotes st false) x'
          else dequote_loop Single (add st c) x'
      | Double =>
          if N.eqb c DQ then dequote_loop Outer (in_quotes st false) x'
          else if N.eqb c BS then match x' with [] => st | d :: x'' => dequote_loop Double (add st d) x'' end
          else dequote_loop Double (add st c) x'
      end
  end.
Definition dequote (x : str) : dequoted := dequote_loop Outer (Dequoted [] None false) x.
(** 63-72 *)
Definition dequote_words (words : list str) : list str := map (fun w => dq_result (dequote w)) words.
End Dequote.

(** ** [parse_line]: 74-122

    In 92-99 and 102-105 the inner loops begin at the quote itself: it is added to the word and ends
    the loop, so that only the quote is added. *)
Fixpoint parse_line_loop (out : list str) (word : str) (active : bool) (x : str) : list str * str * bool :=
  match x with
  | [] => (out, word, active)
  | c :: x' =>
      if N.eqb c SP then
        if active then parse_line_loop (out ++ [word]) [] false x' else parse_line_loop out word active x'
      else if N.eqb c DQ then parse_line_loop out (word ++ [c]) true x'
      else if N.eqb c SQ then parse_line_loop out (word ++ [c]) true x'
      else if N.eqb c BS then
        match x' with
        | [] => (out, word ++ [BS], true)
        | d :: x'' => parse_line_loop out (word ++ [BS; d]) true x''
        end
      else parse_line_loop out (word ++ [c]) true x'
  end.
Definition parse_line (x : str) : list str :=
  match x with
  | [] => [[]]                                            (* 78-81 *)
  | _ =>
      let '(out, word, active) := parse_line_loop [] [] false x in
      if active then out ++ [word]                        (* 117-118 *)
      else if N.eqb (last x 0%N) SP then out ++ [[]]      (* 119-120 *)
      else out
  end.

(** ** [get_prefix_suffix_len]: 124-156; what is printed *)
Fixpoint prefix_suffix_loop (s1 s2 : str) (k : nat) : nat :=
  match k with
  | O => List.length s1                                   (* 155 *)
  | S k' =>
      let start := (List.length s1 - k)%nat in
      if str_eqb (firstn k (skipn start s1)) (firstn k s2) then start   (* 138-147 *)
      else prefix_suffix_loop s1 s2 k'
  end.
Definition get_prefix_suffix_len (s1 s2 : str) : nat := prefix_suffix_loop s1 s2 (Nat.min (List.length s1) (List.length s2)).

(** ** What [commandline_string] offers: 158-204

    [typed]: what [dequote] gave; [replies]: what the completion of the command line gave; [q]:
    [printf %q].  Simplification: the completion itself (172-180) is not modelled. *)
Definition commandline_offers (q : str -> str) (typed : dequoted) (replies : list str) : list str :=
  let line := match dq_break typed with Some n => skipn n (dq_result typed) | None => dq_result typed end in   (* 182-184 *)
  match replies with
  | [] => []
  | first :: _ =>
      let kept := firstn (get_prefix_suffix_len line first) line in                                             (* 187-188 *)
      map (fun reply => if dq_quotes typed then kept ++ reply else q (kept ++ reply)) replies                   (* 190-197 *)
  end.
