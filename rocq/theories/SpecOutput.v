(** * Specification: what a script registers, and which of its lines do something.

    Written from the manuals of the shells (bash(1): [complete]; zshcompsys(1): autoloaded files,
    [compdef]; fish: [complete], [set]); independent of the code under test. *)
From Verif Require Import Base SpecShell SpecFish SpecChoices.
Open Scope list_scope.

(** ** Lines *)

(** A line is a note if there is nothing on it, or a comment. *)
Fixpoint is_note (line : str) : bool :=
  match line with
  | [] => true
  | c :: r => if N.eqb c SP || N.eqb c TAB then is_note r else N.eqb c HASH
  end.
Definition code_lines (script : str) : list str := filter (fun l => negb (is_note l)) (split_c LF script).
Definition first_line (script : str) : str := hd [] (split_c LF script).
Definition last_code_line (script line : str) : Prop := exists before, code_lines script = before ++ [line].

(** ** Registering *)

(** Names that need no quotes and are not taken for options *)
Definition plain_name (special : N -> bool) (x : str) : Prop :=
  x <> [] /\ (forall c, In c x -> special c = false) /\ (forall r, x <> DASH :: r).
Definition is_option (x : str) : bool := match x with c :: _ => N.eqb c DASH | [] => false end.

(** bash: [complete -F func names] *)
Definition bash_registers (line func : str) (names : list str) : Prop :=
  posix_words line = Some (s "complete" :: s "-F" :: func :: names) /\ existsb is_option names = false.
(** zsh: the words behind [#compdef] on the first line of an autoloaded file.  [name=service] has a
    meaning of its own, and so have options. *)
Definition compdef_name (x : str) : bool := negb (is_option x) && negb (memc EQ x) && negb (memc BS x).
Definition compdef_line (line : str) (names : list str) : Prop :=
  exists r, line = s "#compdef" ++ SP :: r /\ split_ws r = names /\ forallb compdef_name names = true.
(** zsh: [compdef func names] *)
Definition zsh_registers (line func : str) (names : list str) : Prop :=
  zsh_words line = Some (s "compdef" :: func :: names) /\ forallb compdef_name names = true.
(** fish: the name is given up and then wraps the program. *)
Definition fish_alias (prog alias : str) (lines : list str) : Prop :=
  map fish_words lines = [Some [s "complete"; s "-c"; alias; s "-e"]; Some [s "complete"; s "-c"; alias; s "-w"; prog]].
(** fish: what was registered for the program is given up, and files are not offered; [prog] is set
    before. *)
Definition fish_program (prog : str) (lines : list str) : Prop :=
  exists first sets, lines = first :: sets ++ [s "complete -c $prog -e"; s "complete -c $prog -x"] /\
    fish_words first = Some [s "set"; s "-l"; s "prog"; prog] /\
    (forall l, In l sets -> exists name value, fish_words l = Some [s "set"; s "-l"; name; value] /\ name <> s "prog").

(** ** Texts of files *)

(** [x] without the blanks around it *)
Definition trimmed (x t : str) : Prop :=
  exists a b, x = a ++ t ++ b /\ forallb is_space a = true /\ forallb is_space b = true /\
    (forall c r, t = c :: r -> is_space c = false) /\ (forall c r, t = r ++ [c] -> is_space c = false).
