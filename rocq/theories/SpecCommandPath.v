(** * Specification: commands with variables, and what they do to PATH.

    Written from POSIX XCU 2.2 to 2.6, bash(1) and zshbuiltins(1) ([local -x]), and the fish manual
    ("Variable expansion", [set]); independent of the code under test. *)
From Verif Require Import Base Value DictSource SpecShell SpecChoices.
Open Scope list_scope.

(** ** Bash and zsh *)

(** As [sh_read], but in double quotes a dollar sign and a name stand for the value of a variable.
    The name must be followed by the closing quote here. *)
Inductive vmode := VMode (m : qmode) | VName (name : str).
Definition push_all (w : option str) (v : str) : option str := Some (match w with None => v | Some u => u ++ v end).
Fixpoint sh_expand (env : str -> option str) (m : vmode) (w : option str) (x : str) : option (list str) :=
  match x with
  | [] => match m with VMode Unquoted => emit w (Some []) | _ => None end
  | c :: x' =>
      match m with
      | VMode Unquoted =>
          if N.eqb c SQ then sh_expand env (VMode InSQ) (start w) x'
          else if N.eqb c DQ then sh_expand env (VMode InDQ) (start w) x'
          else if N.eqb c SP || N.eqb c TAB then emit w (sh_expand env (VMode Unquoted) None x')
          else if posix_special c then None
          else sh_expand env (VMode Unquoted) (push w c) x'
      | VMode InSQ =>
          if N.eqb c SQ then sh_expand env (VMode Unquoted) w x'
          else sh_expand env (VMode InSQ) (push w c) x'
      | VMode InDQ =>
          if N.eqb c DQ then sh_expand env (VMode Unquoted) w x'
          else if N.eqb c BS then sh_expand env (VMode InDQEsc) w x'
          else if N.eqb c DOLLAR then sh_expand env (VName []) w x'
          else if N.eqb c BTICK then None
          else sh_expand env (VMode InDQ) (push w c) x'
      | VMode InDQEsc =>
          if N.eqb c LF then sh_expand env (VMode InDQ) w x'
          else if memc c [DOLLAR; BTICK; DQ; BS] then sh_expand env (VMode InDQ) (push w c) x'
          else sh_expand env (VMode InDQ) (push (push w BS) c) x'
      | VName name =>
          if is_word c then sh_expand env (VName (name ++ [c])) w x'
          else if N.eqb c DQ then
            match env name with
            | Some v => sh_expand env (VMode Unquoted) (push_all w v) x'
            | None => None
            end
          else None
      end
  end.
(** The value of PATH after [local -x PATH=...], where it was [old] before. *)
Definition only_path (old name : str) : option str := if str_eqb name (s "PATH") then Some old else None.
Definition posix_path_after (old code : str) : option str :=
  match sh_expand (only_path old) (VMode Unquoted) None code with
  | Some [command; flag; assignment] =>
      if str_eqb command (s "local") && str_eqb flag (s "-x") && starts_with (s "PATH=") assignment
      then Some (skipn 5 assignment) else None
  | _ => None
  end.

(** ** fish *)

(** As [fish_read], but a word that is a dollar sign and a name stands for the elements of a
    variable. *)
Inductive wmode := WMode (m : fmode) | WName (name : str).
Fixpoint fish_expand (env : str -> option (list str)) (m : wmode) (w : option str) (x : str) : option (list str) :=
  match x with
  | [] => match m with WMode FUnquoted => emit w (Some []) | WName name => env name | _ => None end
  | c :: x' =>
      match m with
      | WMode FUnquoted =>
          if N.eqb c SQ then fish_expand env (WMode FInSQ) (start w) x'
          else if N.eqb c DQ then fish_expand env (WMode FInDQ) (start w) x'
          else if N.eqb c SP || N.eqb c TAB then emit w (fish_expand env (WMode FUnquoted) None x')
          else if N.eqb c DOLLAR then match w with None => fish_expand env (WName []) None x' | Some _ => None end
          else if fish_special c then None
          else fish_expand env (WMode FUnquoted) (push w c) x'
      | WMode FInSQ =>
          if N.eqb c SQ then fish_expand env (WMode FUnquoted) w x'
          else if N.eqb c BS then fish_expand env (WMode FInSQEsc) w x'
          else fish_expand env (WMode FInSQ) (push w c) x'
      | WMode FInSQEsc =>
          if memc c [SQ; BS] then fish_expand env (WMode FInSQ) (push w c) x'
          else fish_expand env (WMode FInSQ) (push (push w BS) c) x'
      | WMode FInDQ =>
          if N.eqb c DQ then fish_expand env (WMode FUnquoted) w x'
          else if N.eqb c BS then fish_expand env (WMode FInDQEsc) w x'
          else if N.eqb c DOLLAR then None
          else fish_expand env (WMode FInDQ) (push w c) x'
      | WMode FInDQEsc =>
          if N.eqb c LF then fish_expand env (WMode FInDQ) w x'
          else if memc c [DOLLAR; DQ; BS] then fish_expand env (WMode FInDQ) (push w c) x'
          else fish_expand env (WMode FInDQ) (push (push w BS) c) x'
      | WName name =>
          if is_word c then fish_expand env (WName (name ++ [c])) w x'
          else if N.eqb c SP || N.eqb c TAB then
            match env name, fish_expand env (WMode FUnquoted) None x' with
            | Some l, Some r => Some (l ++ r)
            | _, _ => None
            end
          else None
      end
  end.
(** The directories of PATH after [set -lx PATH ...], or [set -lx -a PATH ...], which adds to what
    PATH was before. *)
Definition fish_path_after (old : list str) (code : str) : option (list str) :=
  match fish_expand (fun name => if str_eqb name (s "PATH") then Some old else None) (WMode FUnquoted) None code with
  | Some (command :: flag :: name :: args) =>
      if str_eqb command (s "set") && str_eqb flag (s "-lx") then
        if str_eqb name (s "PATH") then Some args
        else if str_eqb name (s "-a") then
          match args with name' :: args' => if str_eqb name' (s "PATH") then Some (old ++ args') else None | [] => None end
        else None
      else None
  | _ => None
  end.

(** ** What is meant *)

(** PATH while a command is completed: the one that is given, or the usual one with some
    directories in front of it and behind it. *)
Definition path_meant (path append prepend : option str) (old : str) : str :=
  match path with
  | Some p => p
  | None =>
      (match prepend with Some p => p ++ [COLON] | None => [] end) ++ old
      ++ (match append with Some a => [COLON] ++ a | None => [] end)
  end.
(** what validation accepts: no empty texts; [path] stands alone *)
Definition path_accepted (path append prepend : option str) : Prop :=
  path <> Some [] /\ append <> Some [] /\ prepend <> Some [] /\ (path <> None -> append = None /\ prepend = None).

(** ** Completion code: a command, with another one that sets PATH on the lines in front of it or not

    PATH while [command] runs *)
Definition path_during {A} (after : A -> str -> option A) (command : str) (old : A) (code : str) : option A :=
  match text_before command code with
  | Some [] => Some old
  | Some x => match text_before [LF] x with Some y => after old y | None => None end
  | None => None
  end.
Definition bash_searches (append : bool) : str -> str -> option str :=
  path_during posix_path_after (s (if append then "COMPREPLY+=($(compgen -A command -- ""$cur""))" else "COMPREPLY=($(compgen -A command -- ""$cur""))")%string).
Definition zsh_searches : str -> str -> option str := path_during posix_path_after (s "_command_names").
Definition fish_searches : list str -> str -> option (list str) := path_during fish_path_after (s "__fish_complete_command").

(** The texts among the options of the completer *)
Definition given_text (args : list value) (name : str) : option str :=
  match args with
  | [VDict d] => match vget name d with Some (VStr x) => Some x | _ => None end
  | _ => None
  end.
Definition path_for (args : list value) (old : str) : str :=
  path_meant (given_text args (s "path")) (given_text args (s "path_append")) (given_text args (s "path_prepend")) old.
