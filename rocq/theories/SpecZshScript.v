(** * Specification: which function of a zsh script completes a command line.

    Written from zshmisc(1) (functions, [case], quoting); independent of the code under test. *)
From Verif Require Import Base PyStr SpecShell SpecZsh SpecChoices Cli SpecCli Helpers Zsh ZshScript When.
Open Scope list_scope.

(** ** Texts *)

(** A pattern of [case] up to the [|] or the parenthesis behind it *)
Fixpoint to_bar (m : zmode) (x : str) : option (str * N * str) :=
  match x with
  | [] => None
  | c :: x' =>
      match m, N.eqb c RPAR || N.eqb c PIPE with
      | ZPlain, true => Some ([], c, x')
      | _, _ => option_map (fun '(a, d, r) => (c :: a, d, r)) (to_bar (zquoting m c) x')
      end
  end.
(** The patterns up to the parenthesis: words that stand for themselves. *)
Inductive reads_patterns : str -> list str -> str -> Prop :=
| rp_last x p w r : to_bar ZPlain x = Some (p, RPAR, r) -> zsh_array p = Some [w] -> reads_patterns x [w] r
| rp_more x p w r ws r' : to_bar ZPlain x = Some (p, PIPE, r) -> zsh_array p = Some [w] -> reads_patterns r ws r' -> reads_patterns x (w :: ws) r'.
(** Branches that call a function and return *)
Inductive reads_branches : str -> list (list str * str) -> Prop :=
| rb_end : reads_branches (s "esac") []
| rb_branch x ws f r l : reads_patterns x ws (s " " ++ f ++ s "; return $?;;" ++ [LF] ++ r) -> forallb is_word f = true -> f <> [] ->
    reads_branches r l -> reads_branches (s "  " ++ x) ((ws, f) :: l).
(** [case "$(query get_positional N)" in ... esac] *)
Definition reads_case (query x : str) (n : nat) (branches : list (list str * str)) : Prop :=
  exists r, x = s "case ""$(" ++ query ++ s " get_positional " ++ show_nat n ++ s ")"" in" ++ [LF] ++ r /\ reads_branches r branches.
(** [local opts=...], the variables of the helper, and [query init "$opts" "${words[@]}"] *)
Definition reads_init (query x opts : str) : Prop :=
  exists w, x = s "local opts=" ++ w ++ [LF]
      ++ s "local HAVING_OPTIONS=() OPTION_VALUES=() POSITIONALS=() INCOMPLETE_OPTION=''" ++ [LF]
      ++ query ++ s " init ""$opts"" ""${words[@]}""" /\
    zsh_array (s "opts=" ++ w) = Some [s "opts=" ++ opts].

(** ** Running *)

(** The last definition of a function counts. *)
Definition defined (script : list (str * sections)) (f : str) (x : sections) : Prop :=
  exists l1 l2, script = l1 ++ (f, x) :: l2 /\ ~ In f (map fst l2).
(** The first branch with the word. *)
Fixpoint select (w : str) (branches : list (list str * str)) : option str :=
  match branches with
  | [] => None
  | (ws, f) :: l => if mems w ws then Some f else select w l
  end.
(** The function [f] leaves the completion to [g].  [answer opts n]: the positional argument [n] (from
    1) of the command line that is completed, as the helper finds it when it was told about [opts]. *)
Inductive leaves_to (query : str) (answer : str -> nat -> str) (script : list (str * sections)) : str -> str -> Prop :=
| lt_plain f : defined script f (Sections [] []) -> leaves_to query answer script f f
| lt_none f i x opts n branches : defined script f (Sections i x) -> reads_init query i opts -> reads_case query x n branches ->
    select (answer opts n) branches = None -> leaves_to query answer script f f
| lt_call f i x opts n branches g h : defined script f (Sections i x) -> reads_init query i opts -> reads_case query x n branches ->
    select (answer opts n) branches = Some g -> leaves_to query answer script g h -> leaves_to query answer script f h.

(** ** Command trees *)

(** Commands with names; those of sub-commands do not start with an equals sign. *)
Definition plain_names (root : cmd) : Prop := forall ps c, located root ps c -> c_prog c <> [] /\
  forall sub cmds w, In sub (subs c) -> get_all_command_variations sub (Some c) = Ok cmds -> In w cmds -> hd 0%N w <> EQ.
(** Different commands have functions of different names. *)
Definition different_functions (prefix : str) (root : cmd) : Prop :=
  NoDup (map (fun p => Helpers.make_completion_funcname prefix (fst p) (snd p) []) (visit_commandlines [] root)).
