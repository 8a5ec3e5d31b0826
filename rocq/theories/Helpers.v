(** * Model of crazy_complete/helpers.py.

    Sets of macro names are lists without meaning in their order. *)
From Verif Require Import Base Dict PyStr Value StrUtils Preproc Shell Cli.
Open Scope list_scope.

(** helpers.py 17-21, [re.sub('\bSEARCH\b', REPLACE, s)].  [prev] tells whether the character
    before [x] is a word character, [skip] how many characters belong to the last match.
    Simplifications: [search] has no character that is special in a regular expression and
    [replace] no backslash; only ASCII letters, digits and the underscore are word
    characters. *)
Definition at_boundary (before_word : bool) (x : str) : bool :=
  xorb before_word (match x with [] => false | c :: _ => is_word c end).
Fixpoint replace_name_loop (search replace : str) (prev : bool) (skip : nat) (x : str) : str :=
  match x with
  | [] => []
  | c :: x' =>
      match skip with
      | S k => replace_name_loop search replace (is_word c) k x'
      | O =>
          if at_boundary prev x && starts_with search x
             && at_boundary (is_word (last search 0%N)) (skipn (List.length search) x)
          then replace ++ replace_name_loop search replace (is_word c) (List.length search - 1) x'
          else c :: replace_name_loop search replace (is_word c) 0 x'
      end
  end.
Definition replace_function_name (search replace x : str) : str :=
  replace_name_loop search replace false 0 x.

(** helpers.py 24-30: a registered function; the class of the function is a parameter of
    [get_code] *)
Record func := MkFunc { f_name : str; f_code : str; f_deps : list str }.
Definition new_function (name code : str) (deps : list str) : func :=
  MkFunc name (strip_p is_space code) deps.

(** helpers.py 37-68: [ShellFunction] (Bash, Zsh) and [FishFunction] *)
Inductive fclass := ShellFunction | FishFunction.
Definition get_code (k : fclass) (code funcname : str) (defines : list str) : res str :=
  let code := replace_s (s "%FUNCNAME%") funcname code in
  do code <- preprocess code defines;
  let code := strip_double_empty_lines code in
  let body := rstrip_p is_space (indent code 2) in
  Ok (match k with
      | ShellFunction => funcname ++ s "() {" ++ [LF] ++ body ++ [LF] ++ s "}"
      | FishFunction => s "function " ++ funcname ++ [LF] ++ body ++ [LF] ++ s "end"
      end).

(** The object a completion function is made for: an option of a command, or a positional. *)
Inductive owner := OwnerOption (o : opt) | OwnerPositional (p : pos) (num : Z).

(** helpers.py 71-90.  [ps] are the ancestors of the command [c], nearest first.
    [num] is the positional's number ([get_positional_num]). *)
Definition set_first (x : str) (l : list str) : list str :=
  match l with [] => [] | _ :: l' => x :: l' end.
Definition context_name (ps : list cmd) (c : cmd) (o : owner) (prefix : str) : res str :=
  let prognames := set_first prefix (map c_prog (get_parents ps c true)) in
  let funcname := make_identifier (join [UND] prognames) in
  match o with
  | OwnerOption o =>
      match o_strings o with
      | [] => Err IndexError
      | x :: _ => Ok (funcname ++ s "__" ++ x)
      end
  | OwnerPositional p num =>
      let identifier :=
        match p_metavar p with
        | Some ((_ :: _) as m) => make_identifier m
        | _ => s "arg" ++ show_Z num
        end in
      Ok (funcname ++ s "__" ++ identifier)
  end.

(** helpers.py 220-250 *)
Definition make_completion_funcname (prefix : str) (ps : list cmd) (c : cmd) (suffix : str) : str :=
  let prognames := set_first prefix (map c_prog (get_parents ps c true)) in
  make_identifier (join [UND] prognames) ++ suffix.

(** helpers.py 93-115: the state of a [GeneralHelpers] object *)
Record helpers := MkHelpers {
  h_prefix : str;
  h_class : fclass;
  h_keep_comments : bool;
  h_dynamic : list (str * str);          (* code -> function name *)
  h_functions : list (str * func);       (* name -> function *)
  h_used : list (str * list str);        (* name -> defines *)
  h_defines : list str }.

(** helpers.py 96-111: [config.function_prefix.replace('$PROG', prog)] *)
Definition new_helpers (function_prefix prog : str) (debug keep_comments : bool) (k : fclass)
    : helpers :=
  MkHelpers (replace_s (s "$PROG") prog function_prefix) k keep_comments [] [] []
    (if debug then [s "DEBUG"] else []).

Definition set_dynamic (h : helpers) (d : list (str * str)) : helpers :=
  MkHelpers (h_prefix h) (h_class h) (h_keep_comments h) d (h_functions h) (h_used h) (h_defines h).
Definition set_used (h : helpers) (u : list (str * list str)) : helpers :=
  MkHelpers (h_prefix h) (h_class h) (h_keep_comments h) (h_dynamic h) (h_functions h) u (h_defines h).

(** helpers.py 150-155 *)
Definition add_function (h : helpers) (f : func) : helpers :=
  MkHelpers (h_prefix h) (h_class h) (h_keep_comments h) (h_dynamic h)
    (dset str_eqb (f_name f) f (h_functions h)) (h_used h) (h_defines h).

(** helpers.py 157-160 *)
Definition define (h : helpers) (name : str) : helpers :=
  MkHelpers (h_prefix h) (h_class h) (h_keep_comments h) (h_dynamic h) (h_functions h) (h_used h)
    (name :: h_defines h).

(** helpers.py 131-136: the search for a name.  [fuel] bounds the loop; [S (length names)]
    rounds are enough, because the candidates differ. *)
Fixpoint free_name (fuel : nat) (names : list str) (funcname candidate : str) (num : nat)
    : res str :=
  if mems candidate names then
    match fuel with
    | O => Err OutOfFuel
    | S fuel => free_name fuel names funcname (funcname ++ show_nat num) (S num)
    end
  else Ok candidate.

(** helpers.py 127-136; [funcname] is [context_name] *)
Definition get_dynamic_funcname (h : helpers) (funcname : str) : res str :=
  let names := map snd (h_dynamic h) in
  free_name (S (List.length names)) names funcname funcname 0.

(** helpers.py 117-125.  Returns the function name. *)
Definition add_dynamic_func (h : helpers) (funcname code : str) : res (helpers * str) :=
  match dget str_eqb code (h_dynamic h) with
  | Some name => Ok (h, name)
  | None =>
      do name <- get_dynamic_funcname h funcname;
      Ok (set_dynamic h (dset str_eqb code name (h_dynamic h)), name)
  end.

(** helpers.py 138-144 *)
Fixpoint map_res {A B} (f : A -> res B) (l : list A) : res (list B) :=
  match l with
  | [] => Ok []
  | x :: l' => do y <- f x; do l'' <- map_res f l'; Ok (y :: l'')
  end.
Definition get_all_dynamic_functions (h : helpers) : res (list str) :=
  map_res (fun '(code, funcname) => get_code (h_class h) (strip_p is_space code) funcname [])
    (h_dynamic h).

(** helpers.py 179-182 *)
Definition get_real_function_name (h : helpers) (name : str) : str := h_prefix h ++ s "__" ++ name.

(** helpers.py 162-177.  The recursion through the dependencies is bounded by [fuel]; with a
    cyclic registry the real function does not return (RecursionError). *)
Definition add_used (u : list (str * list str)) (name : str) (defines : list str)
    : list (str * list str) :=
  match dget str_eqb name u with
  | None => dset str_eqb name defines u
  | Some old => dset str_eqb name (old ++ defines) u
  end.
Fixpoint use_loop (fuel : nat) (functions : list (str * func)) (u : list (str * list str))
    (name : str) (defines : list str) : res (list (str * list str)) :=
  match dget str_eqb name functions with
  | None => Err KeyError
  | Some f =>
      let u := add_used u name defines in
      match fuel with
      | O => Err OutOfFuel
      | S fuel => fold_res (fun u d => use_loop fuel functions u d []) (f_deps f) u
      end
  end.
Definition use_function (fuel : nat) (h : helpers) (name : str) (defines : list str)
    : res (helpers * str) :=
  do u <- use_loop fuel (h_functions h) (h_used h) name defines;
  Ok (set_used h u, get_real_function_name h name).

(** helpers.py 184-187 *)
Definition is_used (h : helpers) (name : str) : bool := dmem str_eqb name (h_used h).

(** helpers.py 189-214 *)
Definition used_code (h : helpers) (name : str) (defines : list str) : res str :=
  match dget str_eqb name (h_functions h) with
  | None => Err KeyError
  | Some f =>
      do code <- get_code (h_class h) (f_code f) (get_real_function_name h name)
                   (h_defines h ++ defines);
      let code := fold_left (fun code dep =>
        replace_function_name dep (get_real_function_name h dep) code) (f_deps f) code in
      let code := replace_s (s "%PREFIX%") (h_prefix h) code in
      let code := if h_keep_comments h then code else strip_comments code in
      Ok (strip_double_empty_lines code)
  end.
Definition get_used_functions_code (h : helpers) : res (list str) :=
  do r <- map_res (fun '(name, defines) => used_code h name defines) (h_used h);
  do dynamic <- get_all_dynamic_functions h;
  Ok (r ++ dynamic).
