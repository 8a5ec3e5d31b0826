(** * Specification: how zsh runs the code that calls [_arguments].

    Written from zshmisc(1) ("Simple commands & pipelines", "Quoting") and zshparam(1) ("Array
    parameters"); independent of the code under test. *)
From Verif Require Import Base SpecZsh SpecChoices.
Open Scope list_scope.

(** The text up to a backslash at the end of the line, which joins it with the next one, and the
    text behind it.  [None] if the line, or the text, ends without one. *)
Fixpoint to_joined (m : zmode) (x : str) : option (str * str) :=
  match x with
  | [] => None
  | c :: x' =>
      let next := option_map (fun '(a, r) => (c :: a, r)) (to_joined (zquoting m c) x') in
      match m with
      | ZPlain =>
          if N.eqb c LF then None
          else if N.eqb c BS then
            match x' with
            | d :: r => if N.eqb d LF then Some ([], r) else next
            | [] => None
            end
          else next
      | _ => next
      end
  end.

Definition arguments_call (stacking : bool) : str :=
  if stacking then s "_arguments -S -s -w ""${args[@]}""" else s "_arguments -S ""${args[@]}""".

(** The array is [ws] when the code [x] is run; it calls [_arguments] with the array [ws'].  Blanks in
    front of a command do not matter.  [holds] tells which conditions are true. *)
Inductive runs (holds : str -> bool) : list str -> str -> list str -> bool -> Prop :=
| runs_call ws x stacking : skip_blanks x = arguments_call stacking -> runs holds ws x ws stacking
| runs_add ws x line rest k r text r' added ws' stacking :
    to_joined ZPlain (skip_blanks x) = Some (line, rest) ->
    text_before (s " &&") line = Some k ->
    text_behind (s "args+=(") (skip_blanks rest) = Some r ->
    to_parenthesis ZPlain r = Some (text, LF :: r') ->
    zsh_array text = Some added ->
    runs holds (if holds k then ws ++ added else ws) r' ws' stacking ->
    runs holds ws x ws' stacking.
(** The code declares the array first. *)
Definition runs_options (holds : str -> bool) (x : str) (ws : list str) (stacking : bool) : Prop :=
  exists r text r' ws0, text_behind (s "local -a args=(") (skip_blanks x) = Some r /\
    to_parenthesis ZPlain r = Some (text, LF :: r') /\ zsh_array text = Some ws0 /\
    runs holds ws0 r' ws stacking.
(** The function [name] ends with this code: [text] is its definition, and there is an empty line in
    front of the code unless it is the first. *)
Definition function_ends_with (name text code : str) : Prop :=
  exists front, text = name ++ s "() {" ++ [LF] ++ front ++ code ++ [LF] ++ s "}" /\
    (front = [] \/ exists front', front = front' ++ [LF; LF]).

(** The definitions all of whose texts stand on one line. *)
Definition one_line (x : str) : Prop := ~ In LF x.
Definition one_line_text (x : option str) : Prop := match x with Some x => one_line x | None => True end.
