(** * Specification for C128: which files are to be offered; how the calls are read *)
From Verif Require Import Base SpecShell SpecGlob SpecPattern SpecZshGlob FileCompleter.
Open Scope list_scope.

(** The directory whose files are to be offered, if there is such a directory; [enter]: where a change of
    the directory leads. *)
Definition place (enter : str -> str -> option str) (here : str) (directory : option str) : option str :=
  match directory with Some d => enter here d | None => Some here end.
(** [name] is the name of the file with this path. *)
Definition file_name (path name : str) : Prop := ~ In SLASH name /\ exists u, path = u ++ name /\ directory u.
(** A directory, or a file with one of the extensions, whatever the case of the letters *)
Definition wanted (o : file_options) (path : str) : Prop :=
  f_extensions o = [] \/ (exists u, path = u ++ s "/") \/
  exists x u v t, In x (f_extensions o) /\ path = u ++ s "." ++ v ++ t /\ lower v = lower x /\ (f_fuzzy o = true \/ t = []).

(** The text of a line of a Bash script; [filter]: the name of the function that removes files. *)
Inductive line_text (filter : str) : bash_line -> str -> Prop :=
| a_call args x : posix_words x = Some args -> line_text filter (Call args) x
| a_call_in d args x y : posix_words x = Some [d] -> posix_words y = Some args ->
    line_text filter (CallIn d args) (s "builtin pushd " ++ x ++ s " &>/dev/null && {" ++ [LF] ++ s "  " ++ y ++ [LF]
      ++ s "  builtin popd >/dev/null" ++ [LF] ++ s "}")
| a_filter patterns x : posix_words x = Some (filter :: patterns) -> line_text filter (Filter patterns) x.

(** [[[ word == $p ]]]: in the value of a variable, quotation marks, blanks, and characters that have a
    meaning in commands only stand for themselves. *)
Definition literal_in_values : str := [SQ; DQ; SP; TAB; LF; DOLLAR; BTICK; AMP; SEMI; LT; GT].
Fixpoint value_text (x : str) : str :=
  match x with
  | [] => []
  | c :: x' =>
      if N.eqb c BS then match x' with d :: x'' => c :: d :: value_text x'' | [] => [c] end
      else if memc c literal_in_values then BS :: c :: value_text x'
      else c :: value_text x'
  end.
Definition value_matches (p word : str) : Prop := glob_matches (value_text p) word.

(** The arguments of zsh's [_files] and [_path_files]: [-W directory], [-g pattern], [-F (patterns)]; the
    patterns in the parentheses are separated by blanks. *)
Record files_call := FilesCall { w_directory : option str; w_pattern : option str; w_ignored : list str; w_only_directories : bool }.
Fixpoint read_files (fuel : nat) (c : files_call) (args : list str) : option files_call :=
  match fuel with
  | O => None
  | S fuel' =>
    match args with
    | [] => Some c
    | a :: rest =>
        if str_eqb a (s "-/") then read_files fuel' (FilesCall (w_directory c) (w_pattern c) (w_ignored c) true) rest
        else match rest with
             | [] => None
             | v :: rest' =>
                 if str_eqb a (s "-W") then read_files fuel' (FilesCall (Some v) (w_pattern c) (w_ignored c) (w_only_directories c)) rest'
                 else if str_eqb a (s "-g") then read_files fuel' (FilesCall (w_directory c) (Some v) (w_ignored c) (w_only_directories c)) rest'
                 else if str_eqb a (s "-F") && starts_with (s "(") v && ends_with (s ")") v
                 then read_files fuel' (FilesCall (w_directory c) (w_pattern c) (split_ws (firstn (List.length v - 2) (skipn 1 v))) (w_only_directories c)) rest'
                 else None
             end
    end
  end.
(** A call of [_files], [_directories] or [_path_files], where [relative] is a function that runs another
    command *)
Definition read_call (relative : str) (run_relative : list str -> list str) (words : list str) : option files_call :=
  let start := FilesCall None None [] false in
  let direct words :=
    match words with
    | w :: args =>
        if str_eqb w (s "_files") || str_eqb w (s "_path_files") then read_files (S (List.length args)) start args
        else if str_eqb w (s "_directories") then read_files (S (List.length args)) (FilesCall None None [] true) args
        else None
    | [] => None
    end in
  match words with
  | w :: args => if str_eqb w relative then direct (run_relative args) else direct words
  | [] => None
  end.
(** Where [_path_files -W d] looks: [d] is the absolute directory of the definition *)
Definition absolute (pwd d : str) : str := if starts_with [SLASH] d then d else pwd ++ [SLASH] ++ d.
(** One pattern of such a list *)
Definition no_blank (x : str) : Prop := x <> [] /\ forall c, In c x -> is_space c = false.

(** The flag [(#i)] in a Zsh pattern: what follows is matched whatever the case of the letters. *)
Fixpoint at_flag (p : str) : option (str * str) :=
  match p with
  | [] => None
  | c :: p' => if starts_with (s "(#i)") p then Some ([], skipn 4 p)
               else match at_flag p' with Some (a, b) => Some (c :: a, b) | None => None end
  end.
Definition flag_matches (p w : str) : Prop :=
  match at_flag p with
  | None => zsh_matches p w
  | Some (a, b) => exists u v v', w = u ++ v /\ zsh_matches a u /\ lower v' = lower v /\ zsh_matches b v'
  end.
(** The files that [_files] selects with its pattern *)
Definition selected (call : files_call) (name : str) : Prop :=
  match w_pattern call with None => True | Some p => flag_matches p name end.
(** A file with one of the extensions, whatever the case of the letters *)
Definition has_extension (o : file_options) (name : str) : Prop :=
  exists x u v t, In x (f_extensions o) /\ name = u ++ s "." ++ v ++ t /\ lower v = lower x /\ (f_fuzzy o = true \/ t = []).
