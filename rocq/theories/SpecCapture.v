(** * Specification: which values captured variables hold.

    Written from zshexpn(1) (command substitution, field splitting), from the documentation of fish,
    and from docs/documentation.md 2085-2095 ("one element for each occurrence of the option on the
    command line"); independent of the code under test. *)
From Verif Require Import Base PyStr SpecShell SpecZsh SpecChoices Cli SpecCli FishRuntime FishQuery Capture.
Open Scope list_scope.

(** The values of an option on the command line, one for each occurrence. *)
Definition values_given (given : list (str * str)) (o : opt) : list str :=
  map snd (filter (fun x => mems (fst x) (o_strings o)) given).

(** ** zsh *)

(** The value assigned by [x=TEXT].  A dollar in front of double quotes stands for itself. *)
Definition zsh_value (x : str) : option str :=
  match x with
  | c :: x' =>
      if N.eqb c DOLLAR then
        match x' with
        | d :: _ => if N.eqb d DQ then match zsh_array x' with Some [v] => Some (DOLLAR :: v) | _ => None end else None
        | [] => Some [DOLLAR]
        end
      else match zsh_array x with Some [v] => Some v | _ => None end
  | [] => Some []
  end.
(** The fields of the output of a command, without those that are empty: the characters of [IFS]
    (here: no blanks) separate them; newlines at the end are removed before. *)
Fixpoint split_any (seps : str) (x : str) : list str :=
  match x with
  | [] => [[]]
  | c :: x' => if memc c seps then [] :: split_any seps x' else match split_any seps x' with w :: l => (c :: w) :: l | [] => [[c]] end
  end.
Definition fields (ifs output : str) : list str := filter nonempty (split_any ifs (rstrip_p (N.eqb LF) output)).

Record zset := ZSet { z_ifs : str; z_variable : str; z_options : list str }.
(** Lines [IFS=... VARIABLE=($(query get_option OPTION ...))] *)
Inductive reads_sets (query : str) : str -> list zset -> Prop :=
| rs_end : reads_sets query [] []
| rs_set i v o r ifs options l :
    zsh_value i = Some ifs -> ~ In SP i -> v <> [] -> forallb is_word v = true ->
    to_parenthesis ZPlain (o ++ s "))" ++ r) = Some (o, s ")" ++ r) -> zsh_array o = Some options -> reads_sets query r l ->
    reads_sets query ([LF] ++ s "IFS=" ++ i ++ s " " ++ v ++ s "=($(" ++ query ++ s " get_option " ++ o ++ s "))" ++ r) (ZSet ifs v options :: l).
(** [local VARIABLE=() ...] and such lines; the empty text does nothing *)
Definition reads_captures (query x : str) (variables : list str) (l : list zset) : Prop :=
  x = [] /\ variables = [] /\ l = [] \/
  exists r, x = s "local " ++ join [SP] (map (fun v => v ++ s "=()") variables) ++ r /\ reads_sets query r l.
(** What a variable holds in the end: what the last line with it has assigned.  [output]: what the
    helper prints. *)
Fixpoint holds_after (output : list str -> str) (l : list zset) (v : str) (old : list str) : list str :=
  match l with
  | [] => old
  | z :: l' => holds_after output l' v (if str_eqb (z_variable z) v then fields (z_ifs z) (output (z_options z)) else old)
  end.

(** ** fish *)

(** Lines [capture_option VARIABLE OPTION ...]; [stored]: the values the helper stores. *)
Inductive runs_captures (f : str) (stored : list str -> list str) : (str -> list str) -> list str -> (str -> list str) -> Prop :=
| rc_end env : runs_captures f stored env [] env
| rc_line env x v options l env' : fish_words x = Some (f :: v :: options) ->
    runs_captures f stored (fun w => if str_eqb w v then stored options else env w) l env' -> runs_captures f stored env (x :: l) env'.

(** Only this option (or one with the same strings) is captured in the variable. *)
Definition unshared (root : cmd) (v : str) (o : opt) : Prop :=
  forall rs c o', located root rs c -> In o' (c_options c) -> o_capture o' = Some v -> o_strings o' = o_strings o.
(** Captured options have strings without special characters. *)
Definition fish_harmless (root : cmd) : Prop :=
  forall rs c o x d, located root rs c -> In o (c_options c) -> o_capture o <> None -> In x (o_strings o) -> In d x -> fish_special d = false.
