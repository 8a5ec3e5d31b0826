(** * Model of the helpers that offer what a command prints: bash_helpers.py 206-226 ([exec] and
    [exec_fast]), zsh_helpers.py 388-399 ([exec]).  In Fish the command itself is used
    (fish_complete.py 541-545). *)
From Verif Require Import Base SpecBashWords.
Open Scope list_scope.

(** [while read]: a line is read up to its newline; without one, [read] fails and the loop ends. *)
Fixpoint read_loop (line : str) (x : str) : list str :=
  match x with
  | [] => []
  | c :: x' => if N.eqb c LF then line :: read_loop [] x' else read_loop (line ++ [c]) x'
  end.
Definition read_lines (x : str) : list str := read_loop [] x.
(** [IFS=$'\t' read -r item desc]: a tabulator counts as white space, so it is removed at both ends, and
    several ones separate like one. *)
Definition is_tab (c : N) : bool := N.eqb c TAB.
Fixpoint first_field (x : str) : str * str :=
  match x with
  | [] => ([], [])
  | c :: x' => if is_tab c then ([], lstrip_p is_tab x) else let (a, r) := first_field x' in (c :: a, r)
  end.
Definition read_two (line : str) : str * str := first_field (strip_p is_tab line).

(** ** Bash: 206-215.  [breaks]: COMP_WORDBREAKS; [q]: [printf %q].  In [*[$special]*], a backslash protects the
    dollar behind it and does not stand for itself. *)
Definition special (breaks : str) : str := breaks ++ s """'><=;|&({:$`".
Definition exec_item (breaks : str) (q : str -> str) (item : str) : str := if existsb (fun c => memc c (special breaks)) item then q item else item.
Definition bash_exec (breaks : str) (q : str -> str) (output cur : str) : list str :=
  map (exec_item breaks q) (filter (starts_with cur) (map (fun l => fst (read_two l)) (read_lines output))).
(** 217-226 *)
Definition bash_exec_fast (output cur : str) : list str := filter (starts_with cur) (map (fun l => fst (read_two l)) (read_lines output)).

(** ** Zsh: 388-399: the elements of the array that is given to [_describe] *)
Definition zsh_exec_line (line : str) : str :=
  let (item, desc) := read_two line in
  let item := replace_c COLON [BS; COLON] (replace_c BS [BS; BS] item) in
  let desc := replace_c BS [BS; BS] desc in
  match desc with [] => item | _ => item ++ COLON :: desc end.
Definition zsh_exec (output : str) : list str := map zsh_exec_line (read_lines output).
