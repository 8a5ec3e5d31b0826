(** * Model of how fish scripts read the command line: fish_prepare.py and the helper function
    [query_init] (fish_helpers.py 16-248).

    Simplifications:
    - the definitions are passed to [query_init] as they are; they are quoted (fish_prepare.py 88),
      see C83_definitions_partial;
    - of the regular expressions of [string match -r], only those are modelled that
      [_get_positional_pattern] makes: nothing, [.*], and alternatives in brackets.  Anything else
      does not match;
    - the positions of positional arguments ([positional_position]), the captured variables and the
      word at the cursor are not modelled;
    - words are those before the word at the cursor ([commandline -poc]), without the first one. *)
From Verif Require Import Base Value Shell StrUtils Cli SpecCli BashUtils BashParser FishRuntime.
Open Scope list_scope.

(** ** fish_prepare.py *)

(** [re.escape] of Python 3.7 and later *)
Definition re_special : str := s "()[]{}?*+-|^$\.&~# " ++ [9; 10; 13; 11; 12]%N.
Definition re_escape (x : str) : str := flat_map (fun c => if memc c re_special then [BS; c] else [c]) x.

(** algo.py 91-114: assignment to an element of a [SparseList] with the default [.*] *)
Fixpoint sparse_set (l : list str) (i : nat) (v : str) : list str :=
  match i, l with
  | O, [] => [v]
  | O, _ :: l' => v :: l'
  | S i', [] => s ".*" :: sparse_set [] i' v
  | S i', x :: l' => x :: sparse_set l' i' v
  end.

(** fish_prepare.py 14-31; [ps] are the ancestors of [c], nearest first *)
Fixpoint positional_patterns (ps : list cmd) (c : cmd) : res (list str) :=
  match ps with
  | [] => Ok []
  | p :: ps' =>
      do r <- positional_patterns ps' p;
      do cmds <- get_all_command_variations c (Some p);
      Ok (sparse_set r (Z.to_nat (positional_index ps' (subcommands_number p)))
            (s "(" ++ join (s "|") (map re_escape cmds) ++ s ")"))
  end.
Definition get_positional_pattern (ps : list cmd) (c : cmd) : res str :=
  do r <- positional_patterns ps c; Ok (join (s ">") r).

(** fish_prepare.py 34-52 *)
Definition get_cmdline_definitions (root : cmd) : res (list str) :=
  do l <- map_res (fun '(ps, c) =>
      let query_options := get_query_option_strings ps c false in
      match query_options with
      | [] => Ok []
      | _ => do pattern <- get_positional_pattern ps c; Ok [pattern ++ s "=>" ++ query_options]
      end) (visit_commandlines [] root);
  Ok (concat l).

(** ** Macros of [query_init]: fish.py 290-299 *)
Record macros := MkMacros { m_short : bool; m_long : bool; m_old : bool; m_subcommands : bool }.
(** utils.py 193-254 *)
Definition get_macros (root : cmd) : macros :=
  let t := get_defined_option_types root in
  MkMacros (t_short t) (t_long t) (t_old t)
    (existsb (fun c => match c_subcommands c with Some (_ :: _) => true | _ => false end) (map snd (visit_commandlines [] root))).

(** ** Words of fish *)

(** [string match -q -r -- "^REGEX$" WORD] for the regular expressions above.  [$] also matches
    before a newline at the end, [.] matches everything but a newline, and a backslash in front of
    anything but letters and digits makes it stand for itself. *)
Fixpoint alternatives (acc : str) (x : str) : option (list str) :=
  match x with
  | [] => None
  | c :: x' =>
      if N.eqb c 41 then match x' with [] => Some [rev acc] | _ => None end
      else if N.eqb c 124 then option_map (cons (rev acc)) (alternatives [] x')
      else if N.eqb c BS then
        match x' with
        | d :: x'' => if is_lower d || is_upper d || is_digit d then None else alternatives (d :: acc) x''
        | [] => None
        end
      else if memc c (s "()[]{}?*+|^$.") then None
      else alternatives (c :: acc) x'
  end.
Definition whole_match (regex word : str) : bool :=
  match regex with
  | [] => str_eqb word []
  | c :: regex' =>
      if str_eqb regex (s ".*") then negb (memc LF word)
      else if N.eqb c 40 then match alternatives [] regex' with Some l => mems word l | None => false end
      else false
  end.
Definition string_match (regex word : str) : bool :=
  whole_match regex word ||
  match rev word with c :: w => N.eqb c LF && whole_match regex (rev w) | [] => false end.

(** [string split -m 1 -- '=>' WORD]; a missing second part is empty *)
Fixpoint split_arrow (x : str) : str * str :=
  match x with
  | [] => ([], [])
  | c :: x' =>
      match x' with
      | d :: x'' => if N.eqb c EQ && N.eqb d 62 then ([], x'') else let (a, b) := split_arrow x' in (c :: a, b)
      | [] => ([c], [])
      end
  end.

(** ** fish_helpers.py 16-248 *)

(** fish_helpers.py 69-78; a missing positional argument counts as an empty one *)
Definition match_positionals (positionals : list str) (pattern : str) : bool :=
  let patterns := split_c 62 pattern in
  forallb (fun i => string_match (nth i patterns []) (nth i positionals [])) (rev (seq 0 (List.length patterns))).

(** fish_helpers.py 93-97: [0], [1] or [?] *)
Fixpoint lookup_option (x : str) (opts : list str) : option argkind :=
  match opts with
  | [] => None
  | opt :: opts' =>
      if str_eqb opt x then Some ArgNone
      else if str_eqb opt (x ++ s "=") then Some ArgRequired
      else if str_eqb opt (x ++ s "=?") then Some ArgOptional
      else lookup_option x opts'
  end.
(** fish_helpers.py 81-102, from the last definition to the first *)
Fixpoint find_option (m : macros) (positionals : list str) (definitions : list str) (x : str) : option argkind :=
  match definitions with
  | [] => None
  | d :: definitions' =>
      let (pattern, options) := split_arrow d in
      if if m_subcommands m then match_positionals positionals pattern else true then
        match lookup_option x (split_c SP options) with
        | Some k => Some k
        | None => find_option m positionals definitions' x
        end
      else find_option m positionals definitions' x
  end.

(** [string split -m 1 -- '=' WORD], if there is one *)
Fixpoint split_eq (x : str) : option (str * str) :=
  match x with
  | [] => None
  | c :: x' => if N.eqb c EQ then Some ([], x') else option_map (fun '(a, b) => (c :: a, b)) (split_eq x')
  end.

(** What a word that looks like an option means: the options in it with their values, and the
    option that takes the next word as its value. *)
Definition meaning : Type := list (str * str) * option str.
Section Word.
Variable get_option : str -> option argkind.

(** fish_helpers.py 125-145; [None]: not an option of more than one character *)
Definition read_long (long : bool) (arg : str) : meaning :=
  match split_eq arg with
  | Some (x, v) => ([(x, v)], None)
  | None =>
      if long then
        match get_option arg with
        | Some ArgRequired => ([], Some arg)
        | _ => ([(arg, [])], None)
        end
      else ([], None)
  end.
(** fish_helpers.py 148-173 *)
Definition read_old (arg : str) : option meaning :=
  match split_eq arg with
  | Some (x, v) =>
      match get_option x with
      | Some ArgRequired | Some ArgOptional => Some ([(x, v)], None)
      | _ => None
      end
  | None =>
      match get_option arg with
      | Some ArgRequired => Some ([], Some arg)
      | Some _ => Some ([(arg, [])], None)
      | None => None
      end
  end.
(** fish_helpers.py 176-209 *)
Fixpoint read_short (chars : str) : meaning :=
  match chars with
  | [] => ([], None)
  | c :: chars' =>
      let option := [DASH; c] in
      match get_option option with
      | Some ArgNone => let (l, w) := read_short chars' in ((option, []) :: l, w)
      | Some ArgRequired => match chars' with [] => ([], Some option) | _ => ([(option, chars')], None) end
      | Some ArgOptional => ([(option, chars')], None)
      | None => read_short chars'
      end
  end.
(** fish_helpers.py 146-210 *)
Definition read_dash (m : macros) (arg : str) : meaning :=
  match (if m_old m then read_old arg else None) with
  | Some r => r
  | None => if m_short m then read_short (tl arg) else ([], None)
  end.
End Word.

(** fish_helpers.py 107-219: the positional arguments, the options with their values, and whether
    the word at the cursor is the argument of an option *)
Fixpoint query_loop (m : macros) (definitions : list str) (positionals : list str) (options : list (str * str))
    (words : list str) : query * bool :=
  match words with
  | [] => (MkQuery positionals options, false)
  | arg :: rest =>
      if str_eqb arg (s "-") then query_loop m definitions (positionals ++ [arg]) options rest
      else if str_eqb arg (s "--") then (MkQuery (positionals ++ rest) options, false)
      else if starts_with (s "-") arg then
        let get_option := find_option m positionals (rev definitions) in
        let (l, waiting) := if starts_with (s "--") arg then read_long get_option (m_long m) arg
                            else read_dash get_option m arg in
        match waiting with
        | None => query_loop m definitions positionals (options ++ l) rest
        | Some x =>
            match rest with
            | v :: rest' => query_loop m definitions positionals (options ++ l ++ [(x, v)]) rest'
            | [] => (MkQuery positionals (options ++ l), true)
            end
        end
      else query_loop m definitions (positionals ++ [arg]) options rest
  end.
Definition query_init (root : cmd) (words : list str) : res (query * bool) :=
  do definitions <- get_cmdline_definitions root;
  Ok (query_loop (get_macros root) definitions [] [] words).
