(** * Model of crazy_complete/argparse_source.py 196-258 and crazy_complete/file_loader.py: how the
    parser in a Python file is found.

    Python is reduced to what matters here: running a file gives the objects that its names are bound
    to, or raises an exception, or ends the program; importing looks at the modules that are loaded
    already and then at the directories of [sys.path].  Simplifications: modules are single files, so
    a module name with a dot is not found; an object is a parser (with its identity), the action made
    by [add_subparsers] (with the parsers of its choices) or something else; the temporary file of a
    file without [.py] has a name of its own; messages are left out. *)
From Verif Require Import Base Cli Application.
Open Scope list_scope.

(** Python objects, as far as they are told apart *)
Inductive object := Parser (id : nat) | Subparsers (choices : list nat) | Other.
(** What the names of a module are bound to, in the order of [dir()] *)
Definition namespace : Type := list (str * object).
Inductive running := Runs (m : namespace) | Fails (e : exn) | Exits.
Record python := MkPython {
  py_loaded : str -> option namespace;        (* sys.modules *)
  py_path : list str;                         (* sys.path *)
  py_file : str -> option running;            (* the file with this name, when it is run *)
  py_main : namespace }.                      (* __main__ *)

(** argparse_source.py 196-206, for parsers and for actions *)
Definition find_parsers (m : namespace) : list nat := flat_map (fun '(_, o) => match o with Parser i => [i] | _ => [] end) m.
Definition find_actions (m : namespace) : list (list nat) := flat_map (fun '(_, o) => match o with Subparsers l => [l] | _ => [] end) m.
(** [list.remove], with the ValueError caught *)
Fixpoint remove_one (i : nat) (l : list nat) : list nat :=
  match l with
  | [] => []
  | j :: l' => if Nat.eqb i j then l' else j :: remove_one i l'
  end.
Definition remove_each (l : list nat) (gone : list nat) : list nat := fold_left (fun l i => remove_one i l) gone l.
(** argparse_source.py 209-222 *)
Definition find_root_argument_parsers (m : namespace) : list nat := fold_left remove_each (find_actions m) (find_parsers m).

(** posixpath.split; simplification: not for files in the root directory, and not for doubled slashes *)
Definition split_path (x : str) : str * str :=
  match rev (split_c SLASH x) with
  | [] => ([], x)
  | f :: before => (match rev before with [] => [] | _ => join [SLASH] (rev before) end, f)
  end.
Definition path_join (dir name : str) : str := dir ++ [SLASH] ++ name.

(** importlib.import_module for a top-level name *)
Definition ImportError : exn := CrazyError (s "No module named").
Fixpoint find_module (py : python) (path : list str) (name : str) : running :=
  match path with
  | [] => Fails ImportError
  | d :: path' =>
      match py_file py (path_join d (name ++ s ".py")) with
      | Some r => r
      | None => find_module py path' name
      end
  end.
Definition import_module (py : python) (path : list str) (name : str) : running :=
  if memc DOT name then Fails ImportError
  else match py_loaded py name with
       | Some m => Runs m
       | None => find_module py path name
       end.

(** file_loader.py 35-58.  A directory that is in [sys.path] already is not added. *)
Definition import_file (py : python) (file : str) : running :=
  let '(directory, filename) := split_path file in
  if ends_with (s ".py") (lower filename) then
    let directory := match directory with [] => s "." | _ => directory end in
    import_module py (if mems directory (py_path py) then py_path py else py_path py ++ [directory]) (firstn (length filename - 3) filename)
  else match py_file py file with Some r => r | None => Fails (CrazyError (s "No such file")) end.
(** file_loader.py 13-32: the names that the file binds are put into [file_loader], but [__main__] is
    returned *)
Definition execute_file (py : python) (file : str) : running :=
  match py_file py file with
  | Some (Runs _) | Some Exits => Runs (py_main py)
  | Some (Fails e) => Fails e
  | None => Fails (CrazyError (s "No such file"))
  end.

(** Whether a parser was found, or an exception was raised, or the program ended *)
Inductive found := Found (o : object) | NotFound (e : exn) | Ended.
(** argparse_source.py 232-258, without the conversion *)
Definition load_from_file (py : python) (file : str) (variable : option str) (blacklist : list nat) : found :=
  let pick (m : namespace) :=
    match variable with
    | Some v =>
        match find (fun '(n, _) => str_eqb n v) m with
        | Some (_, o) => Found o
        | None => NotFound (CrazyError (s "No variable named"))
        end
    | None =>
        match remove_each (find_root_argument_parsers m) blacklist with
        | [] => NotFound (CrazyError (s "Could not find any ArgumentParser object"))
        | [p] => Found (Parser p)
        | _ => NotFound (CrazyError (s "Found too many ArgumentParser objects"))
        end
    end in
  match import_file py file with
  | Exits => Ended                     (* SystemExit is not an Exception: it is not caught *)
  | Runs m => pick m
  | Fails _ =>
      match execute_file py file with
      | Exits => Ended
      | Runs m => pick m
      | Fails e => NotFound e
      end
  end.
