(** * Model of combined completers in Bash and fish: bash_complete.py 14-156 (the classes of completion
    objects), 246-299, 423-424 ([combine]), 426-445 ([list]); fish_complete.py 24-46,
    62-81, 368-436 ([FishCompleteCombine]), 567-582.

    The code of an object is a list of commands; [show] gives the text of each.  The completers
    without nested ones are leaves.  Simplification: a leaf whose code has several lines (for example
    [key_value_list]) is one command. *)
From Verif Require Import Base Value DictSource Shell Choices Ranges CommandPath.
Open Scope list_scope.

(** completers without nested ones *)
Inductive leaf :=
| LWords (values : list str)            (* choices: bash_complete.py 93-114, 274-275 *)
| LCompgen (args : str)                 (* group, user, ...: 117-136 *)
| LCommand (o : path_options)           (* command: 277-299 *)
| LCall (args : list str)               (* a function with arguments: 66-90 *)
| LCode (code : str).                   (* code: 36-64; empty for [none] and the like *)

(** commands in the code *)
Inductive command :=
| Save | Restore                        (* bash_complete.py 49, 54 *)
| Generate (append : bool) (l : leaf)   (* [COMPREPLY=(...)] or [COMPREPLY+=(...)], or the helper for words *)
| Run (l : leaf)                        (* a function or code that sets [COMPREPLY] *)
| SetPath (o : path_options)            (* 289-297 *)
| CutCur (sep : str) | RestoreCur       (* 439-440, 442 *)
| AsList (duplicates : bool) (sep : str).  (* 443 *)

(** the objects *)
Inductive object :=
| OCode (code : list command)
| OFunc (args : list str)
| OWords (values : list str)
| OCompgen (args : leaf) (code : option command)
| OCombine (first : object) (more : list object).

(** [get_code(append)]: 43-57, 73-84, 100-111, 124-133, 149-153.  [if not self.code] *)
Fixpoint get_commands (append : bool) (o : object) : list command :=
  match o with
  | OCode [] => []
  | OCode code => (if append then [Save] else []) ++ code ++ (if append then [Restore] else [])
  | OFunc args => (if append then [Save] else []) ++ [Run (LCall args)] ++ (if append then [Restore] else [])
  | OWords values => [Generate append (LWords values)]
  | OCompgen args code => (match code with Some c => [c] | None => [] end) ++ [Generate append args]
  | OCombine first more => get_commands append first ++ flat_map (get_commands true) more
  end.

(** completers as they are defined; [combine] has at least one *)
Inductive completer :=
| Leaf (l : leaf)
| Combine (first : completer) (more : list completer)
| ListOf (c : completer) (sep : str) (duplicates : bool).

(** [complete_from_def] for these: 246-299, 423-444 *)
Definition has_path (o : path_options) : bool :=
  match posix_path_code o with Some _ => true | None => false end.
Definition leaf_object (l : leaf) : object :=
  match l with
  | LWords values => OWords values
  | LCompgen _ => OCompgen l None
  | LCommand o => OCompgen l (if has_path o then Some (SetPath o) else None)
  | LCall args => OFunc args
  | LCode [] => OCode []
  | LCode code => OCode [Run (LCode code)]
  end.
Fixpoint object_of (c : completer) : object :=
  match c with
  | Leaf l => leaf_object l
  | Combine first more => OCombine (object_of first) (map object_of more)
  | ListOf c sep duplicates =>
      OCode ([CutCur sep] ++ get_commands false (object_of c) ++ [RestoreCur; AsList duplicates sep])
  end.

(** The completers that are defined by a value, for some of them: bash_complete.py 254-455,
    [complete_from_def] in shell.py.  None: another completer (it is a leaf, too, except for
    [key_value_list] and [key_value_pair], whose values are completers). *)
Section Definitions.
(** the names of the functions in the script *)
Variable helper : str -> str.
Definition str_of (v : value) : str := match v with VStr x => x | _ => int_str v end.
Fixpoint completer_of (v : value) {struct v} : option completer :=
  match v with
  | VList (VStr name :: args) =>
      if str_eqb name (s "combine") then
        match args with
        | [VList (first :: more)] =>
            match completer_of first,
              (fix all (l : list value) : option (list completer) := match l with
                 | [] => Some []
                 | x :: l' => match completer_of x, all l' with Some c, Some cs => Some (c :: cs) | _, _ => None end
                 end) more with
            | Some c, Some cs => Some (Combine c cs)
            | _, _ => None
            end
        | _ => None
        end
      else if str_eqb name (s "list") then
        match args with
        | [x] => option_map (fun c => ListOf c (s ",") false) (completer_of x)
        | [x; VDict d] =>
            let sep := match vget (s "separator") d with Some v => str_of v | None => s "," end in
            let duplicates := match vget (s "duplicates") d with Some (VBool b) => b | _ => false end in
            option_map (fun c => ListOf c sep duplicates) (completer_of x)
        | _ => None
        end
      else if str_eqb name (s "command") then Some (Leaf (LCommand (path_options_of args)))
      else
        match args with
        | [] =>
            if mems name [s "none"; s "integer"; s "float"; s "command_arg"] then Some (Leaf (LCode []))
            else if mems name [s "service"; s "user"; s "variable"] then Some (Leaf (LCompgen (s "-A " ++ name)))
            else if str_eqb name (s "environment") then Some (Leaf (LCompgen (s "-A export")))
            else None
        | [VList l] => if str_eqb name (s "choices") then Some (Leaf (LWords (map str_of l))) else None
        | [VDict d] => if str_eqb name (s "choices") then Some (Leaf (LWords (map (fun kv => str_of (fst kv)) d))) else None
        | [VStr x] =>
            if mems name [s "exec"; s "exec_fast"; s "history"] then Some (Leaf (LCall [helper name; x]))
            else if str_eqb name (s "exec_internal") then Some (Leaf (LCode x))
            else if str_eqb name (s "date") then Some (Leaf (LCode []))
            else None
        | [VInt _ as x; VInt _ as y] => if str_eqb name (s "range") then Some (Leaf (LCompgen (s "-W '" ++ braces x y (VInt 1) ++ s "'"))) else None
        | [VInt _ as x; VInt _ as y; VInt _ as z] => if str_eqb name (s "range") then Some (Leaf (LCompgen (s "-W '" ++ braces x y z ++ s "'"))) else None
        | _ => None
        end
  | _ => None
  end.
End Definitions.

(** ** The text *)
Section Text.
(** the names of the helper functions [values] and [value_list] *)
Variables values_name value_list_name : str.
Definition plus (append : bool) : str := if append then s "+" else [].
Definition leaf_text (append : bool) (l : leaf) : str :=
  match l with
  | LWords values => compgen_w values_name append values
  | LCompgen args => s "COMPREPLY" ++ plus append ++ s "=($(compgen " ++ args ++ s " -- ""$cur""))"
  | LCommand _ => s "COMPREPLY" ++ plus append ++ s "=($(compgen -A command -- ""$cur""))"
  | LCall args => join_quoted args [SP]
  | LCode code => code
  end.
Definition show (c : command) : str :=
  match c with
  | Save => s "local COMPREPLY_OLD=(""${COMPREPLY[@]}"")"
  | Restore => s "COMPREPLY=(""${COMPREPLY_OLD[@]}"" ""${COMPREPLY[@]}"")"
  | Generate append l => leaf_text append l
  | Run l => leaf_text false l
  | SetPath o => match posix_path_code o with Some code => code | None => [] end
  | CutCur sep => s "local cur_old=""$cur""" ++ [LF] ++ s "cur=""${cur##*" ++ quote sep ++ s "}"""
  | RestoreCur => s "cur=""$cur_old"""
  | AsList duplicates sep =>
      value_list_name ++ (if duplicates then s " -d" else []) ++ s " " ++ quote sep ++ s " ""${COMPREPLY[@]}"""
  end.
Definition code_text (append : bool) (c : completer) : str := join [LF] (map show (get_commands append (object_of c))).
End Text.

(** ** fish *)

(** The lines of the code.  A list calls the helper for lists with a function of its own: a
    completer that is one command is its own function, which is the same. *)
Inductive fish_line :=
| FSetPath (o : path_options)           (* fish_complete.py 387-394 *)
| FPrint (l : leaf)                     (* a command that prints *)
| FList (duplicates : bool) (sep : str) (body : list fish_line).   (* 575-582 *)
(** [get_code()]: 54-55, 69-70, 408-409, 418-426 *)
Fixpoint fish_lines (c : completer) : list fish_line :=
  match c with
  | Leaf (LCode []) => []
  | Leaf (LCommand o) => (match fish_path_code o with Some _ => [FSetPath o] | None => [] end) ++ [FPrint (LCommand o)]
  | Leaf l => [FPrint l]
  | Combine first more => fish_lines first ++ flat_map fish_lines more
  | ListOf c sep duplicates => [FList duplicates sep (fish_lines c)]
  end.
